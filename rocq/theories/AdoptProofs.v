(** Proofs about the adoption queue *)
From Coq Require Import List Bool Arith Lia.
From Verif Require Import AdoptModel AdoptSpec.
Import ListNotations.

Section Proofs.
Variables (key val bag slice error : Type).
Variable key_eqb : key -> key -> bool.
Variable val_eqb : val -> val -> bool.
Variable bag_eqb : bag -> bag -> bool.
Hypothesis key_ok : forall a b, key_eqb a b = true <-> a = b.
Hypothesis val_ok : forall a b, val_eqb a b = true <-> a = b.
Hypothesis bag_ok : forall a b, bag_eqb a b = true <-> a = b.
Variable contents_of : bag -> contents key val.
Variable is_mutable : bag -> bool.
Variable bag_of : slice -> option bag.
Variable extract : slice -> option (contents key val) + error.
Notation contents := (contents key val).
Notation lookup := (lookup key_eqb).
Notation agree := (agree key_eqb).
Notation failure := (failure error).
Notation merge_inplace := (merge_inplace (error := error) key_eqb val_eqb).
Notation adopt_bags := (adopt_bags (error := error) key_eqb val_eqb bag_eqb contents_of).
Notation adopt_slices := (adopt_slices key_eqb val_eqb bag_eqb bag_of extract).
Notation adopt := (adopt key_eqb val_eqb bag_eqb contents_of bag_of extract).
Notation contains := (contains bag_eqb).
Notation unvisited := (unvisited bag_eqb).
Notation add := (add bag slice).

Lemma key_refl k : key_eqb k k = true. Proof. now apply key_ok. Qed.
Lemma lookup_app (c1 c2 : contents) k : lookup (c1 ++ c2) k = match lookup c1 k with Some v => Some v | None => lookup c2 k end.
Proof. induction c1 as [|[k' v] c1 IH]; cbn; [reflexivity|]. now destruct (key_eqb k' k). Qed.
Lemma lookup_in (c : contents) k : lookup c k <> None <-> In k (map fst c).
Proof.
  induction c as [|[k' v] c IH]; cbn; [split; [congruence|intros []]|].
  destruct (key_eqb k' k) eqn:X; [apply key_ok in X; subst; split; [now left|discriminate]|].
  rewrite IH. split; [now right|]. intros [H|H]; [subst; rewrite key_refl in X; discriminate|exact H].
Qed.
Lemma lookup_step (k' : key) (v : val) (c : contents) k : lookup ((k', v) :: c) k = if key_eqb k' k then Some v else lookup c k.
Proof. reflexivity. Qed.

Definition wf (c : contents) : Prop := NoDup (map fst c).

(** * One merge *)
Lemma merge_keeps other : forall c k v, lookup c k = Some v -> lookup (fst (merge_inplace c other)) k = Some v.
Proof.
  induction other as [|[k' v'] other IH]; intros c k v H; cbn; [exact H|].
  destruct (lookup c k') as [w|]; [destruct (val_eqb w v'); [now apply IH|exact H]|].
  apply IH. rewrite lookup_app, H. reflexivity.
Qed.
Lemma merge_ok other : forall c, wf other -> agree c other -> snd (merge_inplace c other) = None /\
  forall k, lookup (fst (merge_inplace c other)) k = match lookup c k with Some v => Some v | None => lookup other k end.
Proof.
  induction other as [|[k' v'] other IH]; intros c W A; cbn [AdoptModel.merge_inplace].
  - split; [reflexivity|]. intros k. cbn. now destruct (lookup c k).
  - inversion W as [|? ? N W']; subst.
    destruct (lookup c k') as [w|] eqn:L.
    + assert (X : w = v') by (apply (A k'); [exact L|cbn; now rewrite key_refl]). rewrite (proj2 (val_ok w v') X).
      destruct (IH c W') as [I1 I2].
      { intros k v x Y Z. apply (A k); [exact Y|]. cbn. destruct (key_eqb k' k) eqn:K; [|exact Z].
        apply key_ok in K. subst k. exfalso. apply N. apply lookup_in. congruence. }
      split; [exact I1|]. intros k. rewrite I2. destruct (lookup c k) eqn:Y; [reflexivity|]. rewrite lookup_step.
      destruct (key_eqb k' k) eqn:K; [apply key_ok in K; congruence|reflexivity].
    + destruct (IH (c ++ [(k', v')]) W') as [I1 I2].
      { intros k v x Y Z. rewrite lookup_app in Y. destruct (lookup c k) as [y|] eqn:Q.
        - injection Y as <-. apply (A k); [exact Q|]. rewrite lookup_step. destruct (key_eqb k' k) eqn:K; [apply key_ok in K; congruence|exact Z].
        - cbn in Y. destruct (key_eqb k' k) eqn:K; [|discriminate]. apply key_ok in K. subst k. exfalso. apply N. apply lookup_in. congruence. }
      split; [exact I1|]. intros k. rewrite I2, lookup_app. destruct (lookup c k) eqn:Q; [reflexivity|]. cbn.
      destruct (key_eqb k' k); reflexivity.
Qed.
Lemma merge_agree other : forall c, wf other -> snd (merge_inplace c other) = None -> agree c other.
Proof.
  induction other as [|[k' v'] other IH]; intros c W H k v x Y Z; cbn [AdoptModel.merge_inplace] in H; [discriminate Z|].
  inversion W as [|? ? N W']; subst. rewrite lookup_step in Z.
  destruct (lookup c k') as [w|] eqn:L.
  - destruct (val_eqb w v') eqn:V; [|discriminate H]. apply val_ok in V.
    destruct (key_eqb k' k) eqn:K; [apply key_ok in K; congruence|]. exact (IH c W' H k v x Y Z).
  - destruct (key_eqb k' k) eqn:K; [apply key_ok in K; congruence|].
    apply (IH _ W' H k v x); [|exact Z]. rewrite lookup_app, Y. reflexivity.
Qed.

(** * Several merges *)
Fixpoint merges (c : contents) (l : list contents) : contents * option failure :=
  match l with
  | [] => (c, None)
  | x :: l => match merge_inplace c x with (c, None) => merges c l | (c, Some e) => (c, Some e) end
  end.
Lemma merges_keep l : forall c k v, lookup c k = Some v -> lookup (fst (merges c l)) k = Some v.
Proof.
  induction l as [|x l IH]; intros c k v H; [exact H|]. cbn. pose proof (merge_keeps x c k v H) as K.
  destruct (merge_inplace c x) as [c' [e|]]; [exact K|]. now apply IH.
Qed.
Lemma agree_sym (a b : contents) : agree a b -> agree b a.
Proof. intros H k v w X Y. symmetry. exact (H k w v Y X). Qed.
Lemma agree_refl (a : contents) : agree a a.
Proof. intros k v w X Y. congruence. Qed.
Lemma merges_spec l : forall c, Forall wf l ->
  (snd (merges c l) = None <-> (forall x y, In x (c :: l) -> In y (c :: l) -> agree x y)) /\
  (snd (merges c l) = None -> forall k v, lookup (fst (merges c l)) k = Some v <-> exists x, In x (c :: l) /\ lookup x k = Some v).
Proof.
  induction l as [|x l IH]; intros c W.
  - cbn. split; [split; [intros _ x y [<-|[]] [<-|[]]; apply agree_refl|reflexivity]|].
    intros _ k v. split; [intros H; exists c; auto|]. intros (y & [<-|[]] & H). exact H.
  - inversion W as [|? ? Wx Wl]; subst. cbn [merges]. destruct (merge_inplace c x) as [c' e] eqn:M.
    destruct e as [e|].
    { split; [|discriminate]. split; [discriminate|]. intros H. exfalso.
      destruct (merge_ok x c Wx) as [Q _]; [apply H; cbn; auto|]. rewrite M in Q. discriminate Q. }
    assert (A : agree c x) by (apply merge_agree; [exact Wx|now rewrite M]).
    destruct (merge_ok x c Wx A) as [_ LK]. rewrite M in LK. cbn [fst] in LK.
    destruct (IH c' Wl) as [I1 I2].
    assert (SP : forall k v, lookup c' k = Some v <-> lookup c k = Some v \/ lookup x k = Some v).
    { intros k v. rewrite LK. split.
      - destruct (lookup c k); [intros ->; now left|now right].
      - intros [-> |H]; [reflexivity|]. destruct (lookup c k) as [w|] eqn:Q; [|exact H]. f_equal. exact (A k w v Q H). }
    assert (EQ : forall y, agree c' y <-> agree c y /\ agree x y).
    { intros y. split.
      - intros H. split; intros k v w X Y; apply (H k v w); auto; apply SP; auto.
      - intros [H1 H2] k v w X Y. apply SP in X. destruct X as [X|X]; [exact (H1 k v w X Y)|exact (H2 k v w X Y)]. }
    split.
    + rewrite I1. split.
      * intros H. assert (Z : forall y, In y l -> agree c y /\ agree x y) by (intros y Y; apply EQ; apply H; cbn; auto).
        intros a b [<-|[<-|Ha]] [<-|[<-|Hb]]; auto using agree_refl, agree_sym; try (apply Z; auto); try (apply agree_sym, Z; auto).
        apply H; cbn; auto.
      * intros H a b [<-|Ha] [<-|Hb]; [apply agree_refl| | |apply H; cbn; auto].
        -- apply EQ. split; apply H; cbn; auto.
        -- apply agree_sym, EQ. split; apply H; cbn; auto.
    + intros H k v. rewrite (I2 H). split.
      * intros (y & [<-|Y] & Q); [|exists y; cbn; auto]. apply SP in Q. destruct Q as [Q|Q]; [exists c|exists x]; cbn; auto.
      * intros (y & [<-|[<-|Y]] & Q); [exists c'|exists c'|exists y]; cbn; (split; [auto|]); try apply SP; auto.
Qed.

(** * The queue *)
Lemma contains_in v b : contains v b = true <-> In b v.
Proof.
  unfold AdoptModel.contains. rewrite existsb_exists. split.
  - intros (x & X & Y). apply bag_ok in Y. now subst.
  - intros H. exists b. split; [exact H|now apply bag_ok].
Qed.
Lemma unvisited_in bags : forall v b, In b (unvisited v bags) <-> In b bags /\ ~ In b v.
Proof.
  induction bags as [|a bags IH]; intros v b; cbn; [tauto|].
  destruct (contains v a) eqn:C.
  - apply contains_in in C. rewrite IH. split; [tauto|]. intros [[<-|H] N]; [contradiction|auto].
  - assert (N : ~ In a v) by (intros X; apply contains_in in X; congruence). cbn. rewrite IH. cbn.
    split; [intros [<-|[H K]]; tauto|]. intros [[<-|H] K]; [now left|].
    assert (D : a = b \/ a <> b) by (destruct (bag_eqb a b) eqn:Q; [left; now apply bag_ok|right; intros ->; rewrite (proj2 (bag_ok b b) eq_refl) in Q; discriminate]).
    destruct D as [D|D]; [now left|right]. tauto.
Qed.
Lemma adopt_bags_merges bags : forall c v,
  fst (fst (adopt_bags c v bags)) = fst (merges c (map contents_of (unvisited v bags))) /\
  snd (adopt_bags c v bags) = snd (merges c (map contents_of (unvisited v bags))) /\
  (snd (adopt_bags c v bags) = None -> forall b, In b (snd (fst (adopt_bags c v bags))) <-> In b v \/ In b bags).
Proof.
  induction bags as [|a bags IH]; intros c v; cbn [AdoptModel.adopt_bags AdoptModel.unvisited].
  - cbn. repeat split; auto. intros [?|[]]; auto.
  - destruct (contains v a) eqn:C.
    + destruct (IH c v) as (I1 & I2 & I3). split; [exact I1|]. split; [exact I2|]. intros H b. rewrite (I3 H b).
      apply contains_in in C. cbn. split; [tauto|]. intros [?|[<-|?]]; auto.
    + cbn [map merges]. destruct (merge_inplace c (contents_of a)) as [c' [e|]].
      * cbn. repeat split; auto; discriminate.
      * destruct (IH c' (a :: v)) as (I1 & I2 & I3). split; [exact I1|]. split; [exact I2|]. intros H b. rewrite (I3 H b). cbn. tauto.
Qed.

Definition skipped (v : list bag) (s : slice) : bool := match bag_of s with Some b => contains v b | None => false end.
Fixpoint gained (v : list bag) (slices : list slice) : option (list contents) :=
  match slices with
  | [] => Some []
  | s :: slices =>
      if skipped v s then gained v slices
      else match extract s with
           | inr _ => None
           | inl None => gained v slices
           | inl (Some x) => match gained v slices with Some l => Some (x :: l) | None => None end
           end
  end.
Lemma adopt_slices_merges v slices : forall c,
  match gained v slices with
  | Some l => adopt_slices c v slices = merges c l
  | None => snd (adopt_slices c v slices) <> None
  end.
Proof.
  induction slices as [|s slices IH]; intros c; cbn [gained AdoptModel.adopt_slices]; [reflexivity|].
  fold (skipped v s). destruct (skipped v s); [apply IH|]. destruct (extract s) as [[x|]|e]; [|apply IH|discriminate].
  destruct (gained v slices) as [l|].
  - cbn [merges]. destruct (merge_inplace c x) as [c' [e|]]; [reflexivity|]. apply IH.
  - destruct (merge_inplace c x) as [c' [e|]]; [discriminate|]. apply IH.
Qed.
Lemma gained_in v slices : match gained v slices with
  | Some l => (forall x, In x l <-> exists s, In s slices /\ skipped v s = false /\ extract s = inl (Some x)) /\
              (forall s, In s slices -> skipped v s = false -> forall e, extract s <> inr e)
  | None => exists s e, In s slices /\ skipped v s = false /\ extract s = inr e
  end.
Proof.
  induction slices as [|s slices IH]; cbn [gained].
  - split; [|intros s []]. intros x. split; [intros []|intros (s & [] & _)].
  - destruct (skipped v s) eqn:K; [|destruct (extract s) as [[x|]|e] eqn:X].
    1,3: destruct (gained v slices) as [l|]; [destruct IH as [I1 I2]; split|].
    1,4: intros y; rewrite I1; split; [intros (t & T & Y); exists t; cbn; auto|intros (t & [<-|T] & Y & Z); [congruence|exists t; auto]].
    1,3: intros t [<-|T] Y; [congruence|now apply I2].
    1,2: destruct IH as (t & e & T & Y); exists t, e; cbn; auto.
    + destruct (gained v slices) as [l|]; [destruct IH as [I1 I2]; split|].
      * intros y. cbn. rewrite I1. split.
        -- intros [<-|(t & T & Y)]; [exists s; auto|exists t; auto].
        -- intros (t & [<-|T] & Y & Z); [left; congruence|right; exists t; auto].
      * intros t [<-|T] Y; [intros e; congruence|now apply I2].
      * destruct IH as (t & e & T & Y). exists t, e. cbn; auto.
    + exists s, e. cbn; auto.
Qed.

Lemma queue_of_spec (adds : list add) :
  (forall b, In b (bags_to_merge (queue_of bag_of adds)) <-> added_bag adds b) /\
  (forall s, In s (slices_to_merge (queue_of bag_of adds)) <-> exists b, added_slice bag_of adds s b).
Proof.
  unfold added_bag, added_slice. induction adds as [|a adds IH] using rev_ind.
  - cbn. split; [tauto|]. intros s. split; [intros []|intros (b & [] & _)].
  - unfold queue_of. rewrite fold_left_app. cbn [fold_left]. fold (queue_of bag_of adds). destruct IH as [I1 I2].
    destruct a as [s|[b|]].
    + unfold add_slice. destruct (bag_of s) as [sb|] eqn:B; cbn.
      * split; [intros b; rewrite I1, in_app_iff; cbn; split; [auto|intros [?|[?|[]]]; [auto|discriminate]]|].
        intros t. rewrite in_app_iff, I2. cbn. split.
        -- intros [(b & T & Q)|[<-|[]]]; [exists b|exists sb]; rewrite in_app_iff; cbn; auto.
        -- intros (b & T & Q). rewrite in_app_iff in T. cbn in T. destruct T as [T|[T|[]]]; [left; exists b; auto|right; left; congruence].
      * split; [intros b; rewrite I1, in_app_iff; cbn; split; [auto|intros [?|[?|[]]]; [auto|discriminate]]|].
        intros t. rewrite I2. split; intros (b & T & Q); exists b; rewrite in_app_iff in *; cbn in *; [auto|].
        destruct T as [T|[T|[]]]; [auto|congruence].
    + cbn. split.
      * intros c. rewrite !in_app_iff, I1. cbn. split; intros [?|[?|[]]]; auto; right; left; congruence.
      * intros t. rewrite I2. split; intros (c & T & Q); exists c; rewrite in_app_iff in *; cbn in *; [auto|].
        destruct T as [T|[T|[]]]; [auto|discriminate].
    + cbn. split.
      * intros c. rewrite I1, in_app_iff. cbn. split; [auto|]. intros [?|[?|[]]]; [auto|discriminate].
      * intros t. rewrite I2. split; intros (c & T & Q); exists c; rewrite in_app_iff in *; cbn in *; [auto|].
        destruct T as [T|[T|[]]]; [auto|discriminate].
Qed.

Hypothesis contents_wf : forall b, wf (contents_of b).
Hypothesis extract_wf : forall s c, extract s = inl (Some c) -> wf c.

(** ** Adopting *)
Definition base (into : option bag) : contents := match into with Some b => contents_of b | None => [] end.
Definition visited_at_first (into : option bag) : list bag := match into with Some b => [b] | None => [] end.
Notation adoptable := (adoptable key_eqb contents_of bag_of extract).
Notation union := (union key_eqb contents_of bag_of extract).
Notation part := (part contents_of bag_of extract).

Lemma merges_app l1 l2 : forall c, merges c (l1 ++ l2) =
  match merges c l1 with (c, None) => merges c l2 | (c, Some e) => (c, Some e) end.
Proof. induction l1 as [|x l1 IH]; intros c; [reflexivity|]. cbn. destruct (merge_inplace c x) as [c' [e|]]; [reflexivity|apply IH]. Qed.

Lemma adopt_spec into adds (r := adopt (base into) (visited_at_first into) (queue_of bag_of adds)) :
  (snd r = None <-> adoptable into adds) /\ (snd r = None -> union into adds (fst r)).
Proof.
  destruct (queue_of_spec adds) as [QB QS]. unfold r, AdoptModel.adopt. set (q := queue_of bag_of adds) in *.
  set (v0 := visited_at_first into). set (bl := map contents_of (unvisited v0 (bags_to_merge q))).
  destruct (adopt_bags_merges (bags_to_merge q) (base into) v0) as (A1 & A2 & A3).
  fold bl in A1, A2.
  assert (INTO : forall b, In b v0 <-> into = Some b).
  { unfold v0. destruct into as [d|]; cbn; split; try (intros [<-|[]]; reflexivity); try (intros [= <-]; now left); try intros []; discriminate. }
  set (v := snd (fst (adopt_bags (base into) v0 (bags_to_merge q)))).
  set (v1 := v0 ++ bags_to_merge q).
  assert (SK : snd (adopt_bags (base into) v0 (bags_to_merge q)) = None -> forall s, skipped v s = skipped v1 s).
  { intros H s. unfold skipped. destruct (bag_of s) as [b|]; [|reflexivity].
    apply eq_true_iff_eq. rewrite !contains_in. unfold v, v1. rewrite (A3 H b), in_app_iff. reflexivity. }
  assert (EX : forall s, (In s (slices_to_merge q) /\ skipped v1 s = false) <-> extracted bag_of into adds s).
  { intros s. unfold extracted, skipped. rewrite QS. split.
    - intros ((b & B) & K). exists b. split; [exact B|]. rewrite (proj2 B) in K.
      assert (N : ~ In b v1) by (intros X; apply contains_in in X; congruence). unfold v1 in N. rewrite in_app_iff, QB, INTO in N. tauto.
    - intros (b & B & N1 & N2). split; [now exists b|]. rewrite (proj2 B). apply not_true_iff_false. rewrite contains_in.
      unfold v1. rewrite in_app_iff, QB, INTO. tauto. }
  assert (PARTS : forall l, gained v1 (slices_to_merge q) = Some l -> into <> None \/ True ->
     forall c, In c (bl ++ l) <-> ((exists b, added_bag adds b /\ into <> Some b /\ c = contents_of b) \/ (exists s, extracted bag_of into adds s /\ extract s = inl (Some c)))).
  { intros l L _ c. pose proof (gained_in v1 (slices_to_merge q)) as GI. rewrite L in GI. destruct GI as [G1 _].
    rewrite in_app_iff, G1. unfold bl. rewrite in_map_iff. split.
    - intros [(b & <- & B)|(s & S1 & S2 & S3)].
      + apply unvisited_in in B. rewrite QB, INTO in B. left. exists b. tauto.
      + right. exists s. split; [apply EX; auto|exact S3].
    - intros [(b & B1 & B2 & ->)|(s & S1 & S2)].
      + left. exists b. split; [reflexivity|]. apply unvisited_in. rewrite QB, INTO. auto.
      + right. exists s. apply EX in S1. tauto. }
  assert (PART : forall l, gained v1 (slices_to_merge q) = Some l -> forall c, part into adds c <-> (into <> None /\ c = base into) \/ In c (bl ++ l)).
  { intros l L c. unfold AdoptSpec.part. rewrite (PARTS l L (or_intror Logic.I)). split.
    - intros [(b & -> & ->)|[(b & B & ->)|H]]; [left; split; [discriminate|reflexivity]| |auto].
      assert (D : into = Some b \/ into <> Some b).
      { destruct into as [d|]; [|right; discriminate]. destruct (bag_eqb d b) eqn:Q; [left; f_equal; now apply bag_ok|].
        right. intros [= ->]. rewrite (proj2 (bag_ok b b) eq_refl) in Q. discriminate. }
      destruct D as [D|D]; [left; rewrite D; split; [discriminate|reflexivity]|right; left; exists b; auto].
    - intros [[H ->]|[(b & B & _ & ->)|H]]; [|right; left; exists b; auto|auto].
      left. destruct into as [d|]; [exists d; auto|congruence]. }
  destruct (adopt_bags (base into) v0 (bags_to_merge q)) as [[c1 v'] e1] eqn:AB. cbn [fst snd] in *. subst v.
  assert (WF : forall l, gained v1 (slices_to_merge q) = Some l -> Forall wf (bl ++ l)).
  { intros l L. pose proof (gained_in v1 (slices_to_merge q)) as GI. rewrite L in GI. destruct GI as [G1 _].
    apply Forall_app. split; apply Forall_forall; intros x X.
    - unfold bl in X. apply in_map_iff in X. destruct X as (b & <- & _). apply contents_wf.
    - apply G1 in X. destruct X as (s & _ & _ & X). exact (extract_wf s x X). }
  assert (NOBASE : into = None -> base into = []) by (intros ->; reflexivity).
  (* the whole, when all slices can be extracted *)
  assert (ALL : forall l, gained v1 (slices_to_merge q) = Some l ->
     (snd (merges (base into) (bl ++ l)) = None <-> adoptable into adds) /\
     (snd (merges (base into) (bl ++ l)) = None -> union into adds (fst (merges (base into) (bl ++ l))))).
  { intros l L. destruct (merges_spec (bl ++ l) (base into) (WF l L)) as [M1 M2].
    pose proof (gained_in v1 (slices_to_merge q)) as GI. rewrite L in GI. destruct GI as [_ G2].
    assert (DN : into = None \/ into <> None) by (destruct into; [right; discriminate|now left]).
    split.
    - rewrite M1. split.
      + intros H. split.
        * intros a b Ha Hb. apply (PART l L) in Ha, Hb. apply H; cbn.
          -- destruct Ha as [[_ ->]|Ha]; auto.
          -- destruct Hb as [[_ ->]|Hb]; auto.
        * intros s S. apply EX in S. destruct S. now apply G2.
      + intros [H _] a b Ha Hb. cbn in Ha, Hb.
        assert (Q : forall x, base into = x \/ In x (bl ++ l) -> part into adds x \/ x = []).
        { intros x [<-|X]; [|left; apply (PART l L); auto]. destruct DN as [D|D]; [right; auto|left; apply (PART l L); auto]. }
        apply Q in Ha, Hb. destruct Ha as [Ha| ->]; [|intros k v w X; discriminate X].
        destruct Hb as [Hb| ->]; [now apply H|intros k v w _ X; discriminate X].
    - intros H k v. rewrite (M2 H k v). split.
      + intros (x & [<-|X] & K); [|exists x; split; [apply (PART l L); auto|exact K]].
        destruct DN as [D|D]; [rewrite (NOBASE D) in K; discriminate K|]. exists (base into). split; [apply (PART l L); auto|exact K].
      + intros (x & X & K). exists x. split; [|exact K]. apply (PART l L) in X. cbn. destruct X as [[_ ->]|X]; auto. }
  destruct e1 as [e|].
  - (* a conflict among the bags *)
    cbn [snd]. split; [|discriminate]. split; [discriminate|]. intros AD. exfalso.
    destruct (gained v1 (slices_to_merge q)) as [l|] eqn:L.
    + destruct (ALL l eq_refl) as [[_ M] _]. specialize (M AD). rewrite merges_app in M.
      destruct (merges (base into) bl) as [c2 [e2|]]; [discriminate M|discriminate A2].
    + pose proof (gained_in v1 (slices_to_merge q)) as GI. rewrite L in GI. destruct GI as (s & e' & S1 & S2 & S3).
      apply (proj2 AD s (proj1 (EX s) (conj S1 S2)) e' S3).
  - specialize (SK eq_refl).
    assert (GE : gained v' (slices_to_merge q) = gained v1 (slices_to_merge q)).
    { generalize (slices_to_merge q). intros sl. induction sl as [|s sl IH]; [reflexivity|]. cbn. rewrite (SK s), IH. reflexivity. }
    pose proof (adopt_slices_merges v' (slices_to_merge q) c1) as AS. rewrite GE in AS.
    destruct (gained v1 (slices_to_merge q)) as [l|] eqn:L.
    + rewrite AS. destruct (ALL l eq_refl) as [M1 M2]. rewrite merges_app in M1, M2.
      destruct (merges (base into) bl) as [c2 e2]. cbn [fst snd] in A1, A2. subst c2 e2. split; assumption.
    + split; [|intros H; contradiction]. split; [intros H; contradiction|]. intros AD. exfalso.
      pose proof (gained_in v1 (slices_to_merge q)) as GI. rewrite L in GI. destruct GI as (s & e' & S1 & S2 & S3).
      apply (proj2 AD s (proj1 (EX s) (conj S1 S2)) e' S3).
Qed.

Lemma adopt_keeps c v q k x : lookup c k = Some x -> lookup (fst (adopt c v q)) k = Some x.
Proof.
  intros H. unfold AdoptModel.adopt. destruct (adopt_bags_merges (bags_to_merge q) c v) as (A1 & _ & _).
  assert (K : lookup (fst (fst (adopt_bags c v (bags_to_merge q)))) k = Some x) by (rewrite A1; now apply merges_keep).
  destruct (adopt_bags c v (bags_to_merge q)) as [[c1 v1] [e|]]; [exact K|]. cbn [fst] in K. clear A1. revert c1 K.
  induction (slices_to_merge q) as [|s sl IH]; intros c1 K; [exact K|]. cbn [AdoptModel.adopt_slices].
  destruct (match bag_of s with Some b => contains v1 b | None => false end); [now apply IH|].
  destruct (extract s) as [[y|]|e]; [|now apply IH|exact K].
  pose proof (merge_keeps y c1 k x K) as M. destruct (merge_inplace c1 y) as [c2 [e|]]; [exact M|]. now apply IH.
Qed.

(** ** A common bag *)
Lemma common_app l1 l2 : forall s, common bag_eqb s (l1 ++ l2) =
  let (r, several) := common bag_eqb s l1 in if several then (r, several) else common bag_eqb r l2.
Proof.
  induction l1 as [|b l1 IH]; intros s; cbn; [reflexivity|]. destruct s as [a|]; [|apply IH].
  destruct (bag_eqb a b); [apply IH|reflexivity].
Qed.
Lemma common_some l : forall b, match common bag_eqb (Some b) l with
  | (Some r, false) => r = b /\ forall x, In x l -> x = b
  | (Some r, true) => r = b /\ exists x, In x l /\ x <> b
  | (None, _) => False
  end.
Proof.
  induction l as [|a l IH]; intros b; cbn; [split; [reflexivity|intros x []]|].
  destruct (bag_eqb b a) eqn:Q.
  - apply bag_ok in Q. subst a. specialize (IH b). destruct (common bag_eqb (Some b) l) as [[r|] [|]]; auto.
    + destruct IH as (-> & x & X & N). split; [reflexivity|]. exists x. auto.
    + destruct IH as (-> & H). split; [reflexivity|]. intros x [<-|X]; auto.
  - split; [reflexivity|]. exists a. split; [now left|]. intros ->. rewrite (proj2 (bag_ok b b) eq_refl) in Q. discriminate.
Qed.
Lemma in_bags_of sl : forall b, In b (bags_of bag_of sl) <-> exists s, In s sl /\ bag_of s = Some b.
Proof.
  induction sl as [|s sl IH]; intros b; cbn; [split; [intros []|intros (s & [] & _)]|].
  destruct (bag_of s) as [a|] eqn:B; cbn; rewrite IH; split.
  - intros [<-|(t & T & Q)]; [exists s; auto|exists t; auto].
  - intros (t & [<-|T] & Q); [left; congruence|right; exists t; auto].
  - intros (t & T & Q); exists t; auto.
  - intros (t & [<-|T] & Q); [congruence|exists t; auto].
Qed.
Lemma all_tracked adds b :
  In b (bags_to_merge (queue_of bag_of adds) ++ bags_of bag_of (slices_to_merge (queue_of bag_of adds))) <-> tracked bag_of adds b.
Proof.
  destruct (queue_of_spec adds) as [QB QS]. rewrite in_app_iff, QB, in_bags_of. unfold tracked. split.
  - intros [H|(s & S & B)]; [now left|right]. exists s. apply QS in S. destruct S as (b' & S1 & S2). split; [exact S1|exact B].
  - intros [H|(s & S)]; [now left|right]. exists s. split; [apply QS; now exists b|exact (proj2 S)].
Qed.
Lemma common_spec adds :
  match get_common_or_merged_db key_eqb val_eqb bag_eqb contents_of bag_of extract (queue_of bag_of adds) with
  | No_bag => forall b, ~ tracked bag_of adds b
  | The_bag b => tracked bag_of adds b /\ forall b', tracked bag_of adds b' -> b' = b
  | New_bag c => (exists b1 b2, tracked bag_of adds b1 /\ tracked bag_of adds b2 /\ b1 <> b2) /\ adoptable None adds /\ union None adds c
  | Fails _ => (exists b1 b2, tracked bag_of adds b1 /\ tracked bag_of adds b2 /\ b1 <> b2) /\ ~ adoptable None adds
  end.
Proof.
  unfold get_common_or_merged_db. set (q := queue_of bag_of adds).
  pose proof (common_app (bags_to_merge q) (bags_of bag_of (slices_to_merge q)) None) as CA.
  destruct (common bag_eqb None (bags_to_merge q)) as [r0 s0]. rewrite <- CA.
  pose proof (all_tracked adds) as AT. fold q in AT. revert AT.
  generalize (bags_to_merge q ++ bags_of bag_of (slices_to_merge q)). intros l AT.
  destruct l as [|b l]; [cbn; intros b B; now apply AT in B|]. cbn [common].
  pose proof (common_some l b) as CS. destruct (common bag_eqb (Some b) l) as [[r|] several]; [|now destruct several].
  destruct several.
  - destruct CS as (-> & x & X & N).
    assert (SEV : exists b1 b2, tracked bag_of adds b1 /\ tracked bag_of adds b2 /\ b1 <> b2).
    { exists x, b. split; [apply AT; now right|]. split; [apply AT; now left|exact N]. }
    destruct (adopt_spec None adds) as [A1 A2]. cbn [base visited_at_first] in A1, A2. fold q in A1, A2.
    destruct (adopt [] [] q) as [c [e|]]; cbn [fst snd] in *.
    + split; [exact SEV|]. intros A. apply A1 in A. discriminate A.
    + split; [exact SEV|]. split; [now apply A1|now apply A2].
  - destruct CS as (-> & H). split; [apply AT; now left|]. intros x X. apply AT in X. destruct X as [<-|X]; [reflexivity|now apply H].
Qed.

(** ** Everything is there *)
Hypothesis extract_part : forall s b c, bag_of s = Some b -> extract s = inl (Some c) ->
  forall k v, lookup c k = Some v -> lookup (contents_of b) k = Some v.
Notation wanted := (wanted key_eqb contents_of bag_of extract).
Lemma wanted_in into adds c k v : union into adds c -> wanted adds k v -> lookup c k = Some v.
Proof.
  intros U W. apply U. destruct W as [(b & B & L)|(s & x & S & B & X & L)].
  - exists (contents_of b). split; [right; left; now exists b|exact L].
  - destruct (bag_of s) as [b|] eqn:SB; [|congruence].
    destruct (queue_of_spec adds) as [QB _].
    assert (D : added_bag adds b \/ ~ added_bag adds b).
    { destruct (contains (bags_to_merge (queue_of bag_of adds)) b) eqn:C.
      - left. apply QB. now apply contains_in.
      - right. intros H. apply QB, contains_in in H. congruence. }
    destruct D as [D|D]; [exists (contents_of b); split; [right; left; now exists b|exact (extract_part s b x SB X k v L)]|].
    assert (D2 : into = Some b \/ into <> Some b).
    { destruct into as [d|]; [|right; discriminate]. destruct (bag_eqb d b) eqn:Q; [left; f_equal; now apply bag_ok|].
      right. intros [= ->]. rewrite (proj2 (bag_ok b b) eq_refl) in Q. discriminate. }
    destruct D2 as [D2|D2]; [exists (contents_of b); split; [left; now exists b|exact (extract_part s b x SB X k v L)]|].
    exists x. split; [|exact L]. right; right. exists s. split; [|exact X]. exists b. split; [now split|auto].
Qed.
Lemma common_wanted adds k v : wanted adds k v ->
  match get_common_or_merged_db key_eqb val_eqb bag_eqb contents_of bag_of extract (queue_of bag_of adds) with
  | No_bag => False
  | The_bag b => lookup (contents_of b) k = Some v
  | New_bag c => lookup c k = Some v
  | Fails _ => True
  end.
Proof.
  intros W. pose proof (common_spec adds) as CS.
  destruct (get_common_or_merged_db _ _ _ _ _ _ _) as [|b|c|e]; [| | |exact Logic.I].
  - destruct W as [(b & B & L)|(s & x & S & B & X & L)]; [apply (CS b); now left|].
    destruct (bag_of s) as [b|] eqn:SB; [|congruence]. apply (CS b). right. exists s. now split.
  - destruct CS as [_ CS]. destruct W as [(b' & B & L)|(s & x & S & B & X & L)].
    + rewrite <- (CS b'); [exact L|now left].
    + destruct (bag_of s) as [b'|] eqn:SB; [|congruence]. rewrite <- (CS b'); [exact (extract_part s b' x SB X k v L)|].
      right. exists s. now split.
  - destruct CS as (_ & _ & U). exact (wanted_in None adds c k v U W).
Qed.

(** ** Fallbacks *)
Lemma with_fallbacks_some (l : list (list (key * val))) k : with_fallbacks key_eqb l k <> None <-> exists c, In c l /\ lookup c k <> None.
Proof.
  induction l as [|c l IH]; cbn; [split; [congruence|intros (c & [] & _)]|]. destruct (lookup c k) eqn:L.
  - split; [intros _; exists c; split; [now left|congruence]|discriminate].
  - rewrite IH. split; [intros (x & X & Y); exists x; auto|]. intros (x & [<-|X] & Y); [congruence|exists x; auto].
Qed.
Lemma with_fallbacks_from (l : list (list (key * val))) k v : with_fallbacks key_eqb l k = Some v -> exists c, In c l /\ lookup c k = Some v.
Proof.
  induction l as [|c l IH]; cbn; [discriminate|]. destruct (lookup c k) eqn:L.
  - intros [= ->]. exists c. auto.
  - intros H. destruct (IH H) as (x & X & Y). exists x. auto.
Qed.
Lemma unvisited_same l k : forall v, (forall b, In b v -> lookup (contents_of b) k = None) ->
  with_fallbacks key_eqb (map contents_of (unvisited v l)) k = with_fallbacks key_eqb (map contents_of l) k.
Proof.
  induction l as [|b l IH]; intros v V; cbn; [reflexivity|]. destruct (contains v b) eqn:C.
  - apply contains_in in C. rewrite (V b C). now apply IH.
  - cbn. destruct (lookup (contents_of b) k) eqn:L; [reflexivity|]. apply IH. intros x [<-|X]; auto.
Qed.
Lemma queue_lists adds : forall q,
  bags_to_merge (fold_left (fun q a => match a with Add_slice s => add_slice bag_of q s | Add_bag b => add_bag q b end) adds q) = bags_to_merge q ++ bags_added adds /\
  bags_of bag_of (slices_to_merge (fold_left (fun q a => match a with Add_slice s => add_slice bag_of q s | Add_bag b => add_bag q b end) adds q))
    = bags_of bag_of (slices_to_merge q) ++ bags_of_slices bag_of adds.
Proof.
  assert (BA : forall l s b, bag_of s = Some b -> bags_of bag_of (l ++ [s]) = bags_of bag_of l ++ [b]).
  { induction l as [|t l IH]; intros s b B; cbn; [now rewrite B|]. destruct (bag_of t); cbn; now rewrite (IH s b B). }
  induction adds as [|a adds IH]; intros q; [cbn; now rewrite !app_nil_r|]. cbn [fold_left].
  destruct (IH (match a with Add_slice s => add_slice bag_of q s | Add_bag b => add_bag q b end)) as [I1 I2]. rewrite I1, I2.
  destruct a as [s|[b|]]; cbn; auto.
  - unfold add_slice. destruct (bag_of s) as [b|] eqn:B; cbn; [|auto]. rewrite (BA _ _ _ B), <- app_assoc. auto.
  - rewrite <- app_assoc. auto.
Qed.
Lemma first_with_spec l k : forall v, with_fallbacks key_eqb (map contents_of l) k = Some v <->
  exists b, first_with key_eqb contents_of l k b /\ lookup (contents_of b) k = Some v.
Proof.
  induction l as [|a l IH]; intros v; cbn.
  - split; [discriminate|]. intros (b & (l1 & l2 & Q & _) & _). now destruct l1.
  - destruct (lookup (contents_of a) k) as [w|] eqn:L.
    + split.
      * intros [= ->]. exists a. split; [|exact L]. exists [], l. split; [reflexivity|]. split; [congruence|intros x []].
      * intros (b & (l1 & l2 & Q & N & F) & B). destruct l1 as [|x l1]; cbn in Q; injection Q as -> ->; [congruence|].
        rewrite (F x (or_introl eq_refl)) in L. discriminate.
    + rewrite IH. split; intros (b & (l1 & l2 & Q & N & F) & B); exists b; (split; [|exact B]).
      * exists (a :: l1), l2. rewrite Q. split; [reflexivity|]. split; [exact N|]. intros x [<-|X]; auto.
      * destruct l1 as [|x l1]; cbn in Q; injection Q as -> ->; [congruence|]. exists l1, l2. split; [reflexivity|]. split; [exact N|].
        intros y Y. apply F. now right.
Qed.
Lemma fallbacks_spec adds k v :
  with_fallbacks key_eqb (get_bag_with_fallbacks bag_eqb contents_of bag_of (queue_of bag_of adds)) k = Some v <->
  exists b, first_with key_eqb contents_of (bags_added adds ++ bags_of_slices bag_of adds) k b /\ lookup (contents_of b) k = Some v.
Proof.
  rewrite <- first_with_spec. unfold get_bag_with_fallbacks. rewrite unvisited_same; [|intros b []].
  unfold queue_of. destruct (queue_lists adds empty_queue) as [-> ->]. reflexivity.
Qed.

(** ** Adopting a slice over a bag *)
Lemma with_adopted_spec b s :
  match with_adopted_values bag_eqb contents_of is_mutable bag_of extract b s with
  | inl None => b = None /\ bag_of s = None
  | inl (Some layers) =>
      (forall d, b = Some d -> is_mutable d = false) /\
      (forall x k v, bag_of s <> None -> extract s = inl (Some x) -> lookup x k = Some v -> with_fallbacks key_eqb layers k = Some v) /\
      (forall d k v, b = Some d -> lookup (contents_of d) k = Some v ->
         (forall x, bag_of s <> None -> extract s = inl (Some x) -> lookup x k = None) -> with_fallbacks key_eqb layers k = Some v) /\
      (forall k v, with_fallbacks key_eqb layers k = Some v -> exists d, (b = Some d \/ bag_of s = Some d) /\ lookup (contents_of d) k = Some v)
  | inr Mutable => exists d, b = Some d /\ is_mutable d = true
  | inr (Failed e) => extract s = inr e
  | inr Conflict => False
  end.
Proof.
  unfold with_adopted_values. destruct b as [d|].
  - destruct (is_mutable d) eqn:M; [now exists d|]. destruct (bag_of s) as [sb|] eqn:SB.
    + destruct (bag_eqb d sb) eqn:Q.
      * apply bag_ok in Q. subst sb. split; [congruence|]. cbn. split; [|split].
        -- intros x k v _ X L. now rewrite (extract_part s d x SB X k v L).
        -- intros d' k v [= <-] L _. now rewrite L.
        -- intros k v H. exists d. destruct (lookup (contents_of d) k); [auto|discriminate].
      * destruct (extract s) as [[x|]|e] eqn:X; [| |reflexivity].
        -- split; [congruence|]. cbn. split; [intros y k v _ [= <-] L; now rewrite L|]. split.
           ++ intros d' k v [= <-] L N. rewrite (N x); [now rewrite L|discriminate|reflexivity].
           ++ intros k v H. destruct (lookup x k) as [w|] eqn:L.
              ** exists sb. split; [now right|]. rewrite (extract_part s sb x SB X k w L). exact H.
              ** exists d. destruct (lookup (contents_of d) k); [auto|discriminate].
        -- split; [congruence|]. cbn. split; [discriminate|]. split.
           ++ intros d' k v [= <-] L _. now rewrite L.
           ++ intros k v H. exists d. destruct (lookup (contents_of d) k); [auto|discriminate].
    + split; [congruence|]. cbn. split; [congruence|]. split; [intros d' k v [= <-] L _; now rewrite L|].
      intros k v H. exists d. destruct (lookup (contents_of d) k); [auto|discriminate].
  - destruct (bag_of s) as [sb|] eqn:SB; [|now split]. split; [discriminate|]. cbn. split; [|split; [discriminate|]].
    + intros x k v _ X L. now rewrite (extract_part s sb x SB X k v L).
    + intros k v H. exists sb. destruct (lookup (contents_of sb) k); [auto|discriminate].
Qed.

(** ** The order of the calls *)
Lemma order_spec into adds adds' : (forall a, In a adds <-> In a adds') ->
  let r := adopt (base into) (visited_at_first into) (queue_of bag_of adds) in
  let r' := adopt (base into) (visited_at_first into) (queue_of bag_of adds') in
  (snd r = None <-> snd r' = None) /\ (snd r = None -> forall k, lookup (fst r) k = lookup (fst r') k).
Proof.
  intros H r r'. destruct (adopt_spec into adds) as [A1 A2]. destruct (adopt_spec into adds') as [B1 B2]. fold r in A1, A2. fold r' in B1, B2.
  assert (EX : forall s, extracted bag_of into adds s <-> extracted bag_of into adds' s).
  { intros s. unfold extracted, added_slice, added_bag. split; intros (b & (X & Y) & Z & T); exists b.
    - split; [split; [now apply H|exact Y]|]. split; [intros Q; apply Z; now apply H|exact T].
    - split; [split; [now apply H|exact Y]|]. split; [intros Q; apply Z; now apply H|exact T]. }
  assert (PA : forall c, part into adds c <-> part into adds' c).
  { intros c. unfold AdoptSpec.part, added_bag. split; (intros [X|[(b & X & Y)|(s & X & Y)]]; [now left|right; left; exists b; split; [now apply H|exact Y]|right; right; exists s; split; [now apply EX|exact Y]]). }
  assert (E : snd r = None <-> snd r' = None).
  { rewrite A1, B1. unfold AdoptSpec.adoptable. split; intros [X Y]; split.
    - intros a b P Q. apply X; now apply PA.
    - intros s S. apply Y. now apply EX.
    - intros a b P Q. apply X; now apply PA.
    - intros s S. apply Y. now apply EX. }
  split; [exact E|]. intros N k. pose proof (A2 N k) as U. pose proof (B2 (proj1 E N) k) as U'.
  assert (Q : forall v, lookup (fst r) k = Some v <-> lookup (fst r') k = Some v).
  { intros v. rewrite U, U'. split; intros (c & C & L); exists c; (split; [now apply PA|exact L]). }
  destruct (lookup (fst r) k) as [v|]; [symmetry; now apply Q|]. destruct (lookup (fst r') k) as [v|]; [now apply Q|reflexivity].
Qed.
End Proofs.
