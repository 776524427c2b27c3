From Coq Require Import String List Bool Arith NArith ZArith Lia Permutation Sorted.
From Verif Require Import DeepCompareModel DeepCompareSpec DeepCompareOrderProofs.
Import ListNotations.
Local Open Scope string_scope.
Local Open Scope nat_scope.
Local Open Scope list_scope.

(** * Sorting *)
Definition before (a b : key) : Prop := compare_order a b = Lt.
Definition distinct_labels (l : list key) : Prop :=
  forall a b, In a l -> In b l -> label a = label b -> a = b.

Lemma insert_perm k l : Permutation (k :: l) (insert_key k l).
Proof.
  induction l as [|x l IH]; cbn; auto. destruct (compare_order x k); auto.
  rewrite perm_swap. constructor. exact IH.
Qed.
Lemma sort_perm l : Permutation l (sort_keys l).
Proof. induction l as [|k l IH]; cbn; auto. rewrite <- insert_perm. constructor. exact IH. Qed.

Lemma insert_sorted k l : Forall good_key (k :: l) -> ~ In (label k) (map label l) -> StronglySorted before l ->
  StronglySorted before (insert_key k l).
Proof.
  intros G N SS. induction SS as [|x l SS IH F]; cbn.
  - repeat constructor.
  - inversion G as [|? ? Gk G']. subst. inversion G' as [|? ? Gx Gl]. subst. cbn in N.
    destruct (compare_order x k) eqn:E.
    + apply compare_eq_iff in E; auto. tauto.
    + constructor; [apply IH; auto; constructor; auto|].
      rewrite <- insert_perm. constructor; auto.
    + constructor; [constructor; auto|].
      assert (B : before k x). { unfold before. rewrite compare_opp, E by auto. reflexivity. }
      constructor; auto. rewrite Forall_forall in *. intros y Y. unfold before in *.
      apply compare_trans with (b := x); auto.
Qed.
Lemma sort_sorted l : Forall good_key l -> NoDup (map label l) -> StronglySorted before (sort_keys l).
Proof.
  induction l as [|k l IH]; cbn; intros G N; [constructor|].
  inversion G as [|? ? Gk Gl]. inversion N as [|? ? Nk Nl]. subst.
  apply insert_sorted; auto.
  - constructor; auto. rewrite <- sort_perm. auto.
  - intros I. apply Nk. eapply Permutation_in; [|exact I]. apply Permutation_map. symmetry. apply sort_perm.
Qed.

(** * Merging *)
Lemma merge_nil_r ls : merge_keys ls [] = map LeftOnly ls.
Proof. destruct ls; reflexivity. Qed.
Lemma merge_cons l ls r rs : merge_keys (l :: ls) (r :: rs) =
  match compare_order l r with
  | Lt => LeftOnly l :: merge_keys ls (r :: rs)
  | Gt => RightOnly r :: merge_keys (l :: ls) rs
  | Eq => Match l r :: merge_keys ls rs
  end.
Proof. reflexivity. Qed.

Record merged (ls rs : list key) (steps : list step) : Prop := {
  m_left : forall k, In (LeftOnly k) steps <-> In k ls /\ forall r, In r rs -> label r <> label k;
  m_right : forall k, In (RightOnly k) steps <-> In k rs /\ forall l, In l ls -> label l <> label k;
  m_match : forall a b, In (Match a b) steps <-> In a ls /\ In b rs /\ label a = label b;
  m_nodup : NoDup steps }.

Lemma nodup_map_inj {A B} (f : A -> B) l : (forall a b, f a = f b -> a = b) -> NoDup l -> NoDup (map f l).
Proof.
  intros I N. induction N as [|x l N _ IH]; cbn; constructor; auto.
  rewrite in_map_iff. intros (y & E & Y). apply I in E. congruence.
Qed.
Lemma sorted_nodup l : Forall good_key l -> StronglySorted before l -> NoDup l.
Proof.
  intros G SS. induction SS as [|x l SS IH F]; constructor; inversion G; subst; auto.
  intros I. rewrite Forall_forall in F. specialize (F x I). unfold before in F.
  rewrite (proj2 (compare_eq_iff x x ltac:(assumption) ltac:(assumption)) eq_refl) in F. discriminate.
Qed.

Lemma before_label a b : good_key a -> good_key b -> before a b -> label a <> label b.
Proof. intros A B E L. apply compare_eq_iff in L; auto. unfold before in E. congruence. Qed.

Lemma merge_spec ls : forall rs, Forall good_key ls -> Forall good_key rs ->
  StronglySorted before ls -> StronglySorted before rs -> merged ls rs (merge_keys ls rs).
Proof.
  induction ls as [|l ls IHl].
  { intros rs _ G _ SS. replace (merge_keys [] rs) with (map RightOnly rs) by (destruct rs; reflexivity). constructor.
    - intros k. rewrite in_map_iff. split; [intros (x & E & _); discriminate|intros [[] _]].
    - intros k. rewrite in_map_iff. split.
      + intros (x & E & X). injection E as ->. split; [auto|intros ? []].
      + intros [H _]. eauto.
    - intros a b. rewrite in_map_iff. split; [intros (x & E & _); discriminate|intros [[] _]].
    - apply nodup_map_inj; [congruence|]. apply sorted_nodup; auto. }
  induction rs as [|r rs IHr]; intros Gl Gr Sl Sr.
  { rewrite merge_nil_r. constructor.
    - intros k. rewrite in_map_iff. split.
      + intros (x & E & X). injection E as ->. split; [auto|intros ? []].
      + intros [H _]. eauto.
    - intros k. rewrite in_map_iff. split; [intros (x & E & _); discriminate|intros [[] _]].
    - intros a b. rewrite in_map_iff. split; [intros (x & E & _); discriminate|intros (_ & [] & _)].
    - apply nodup_map_inj; [congruence|]. apply sorted_nodup; auto. }
  rewrite merge_cons.
  inversion Gl as [|? ? Gl1 Gl2]. inversion Gr as [|? ? Gr1 Gr2].
  inversion Sl as [|? ? Sl1 Fl]. inversion Sr as [|? ? Sr1 Fr]. subst.
  assert (Fl' : forall x, In x ls -> good_key x /\ before l x) by (rewrite Forall_forall in *; auto).
  assert (Fr' : forall x, In x rs -> good_key x /\ before r x) by (rewrite Forall_forall in *; auto).
  destruct (compare_order l r) eqn:E.
  - apply compare_eq_iff in E; auto.
    destruct (IHl rs Gl2 Gr2 Sl1 Sr1) as [ML MR MM MN].
    assert (L1 : forall x, In x rs -> label x <> label l).
    { intros x X. destruct (Fr' x X) as [GX BX]. apply not_eq_sym. rewrite E. apply before_label; auto. }
    assert (R1 : forall x, In x ls -> label x <> label r).
    { intros x X. destruct (Fl' x X) as [GX BX]. apply not_eq_sym. rewrite <- E. apply before_label; auto. }
    constructor.
    + intros k. cbn [In]. rewrite ML. split.
      * intros [X|[K N]]; [discriminate|]. split; auto. intros x [<-|X]; auto. apply not_eq_sym. apply R1. exact K.
      * intros [[<-|K] N]; [exfalso; apply (N r); auto|]. right. split; auto.
    + intros k. cbn [In]. rewrite MR. split.
      * intros [X|[K N]]; [discriminate|]. split; auto. intros x [<-|X]; auto. apply not_eq_sym. apply L1. exact K.
      * intros [[<-|K] N]; [exfalso; apply (N l); auto|]. right. split; auto.
    + intros a b. cbn [In]. rewrite MM. split.
      * intros [X|[A [B Q]]]; [injection X as -> ->; auto|auto].
      * intros ([<-|A] & [<-|B] & Q); auto.
        -- exfalso. apply (L1 b B). auto.
        -- exfalso. apply (R1 a A). auto.
    + constructor; auto. rewrite MM. intros (A & B & _). apply (R1 l A). exact E.
  - destruct (IHl (r :: rs) Gl2 Gr Sl1 Sr) as [ML MR MM MN].
    assert (L1 : forall x, In x (r :: rs) -> label x <> label l).
    { intros x X. apply not_eq_sym. destruct X as [<-|X]; [apply before_label; auto|].
      destruct (Fr' x X) as [GX BX]. apply before_label; auto. unfold before in *. eapply compare_trans with (b := r); auto. }
    constructor.
    + intros k. cbn [In] in *. rewrite ML. split.
      * intros [X|[K N]]; [injection X as <-; split; auto|]. split; auto.
      * intros [[<-|K] N]; auto.
    + intros k. cbn [In] in *. rewrite MR. split.
      * intros [X|[K N]]; [discriminate|]. split; auto. intros x [<-|X]; auto. apply not_eq_sym. apply L1. exact K.
      * intros [K N]. right. split; auto.
    + intros a b. cbn [In] in *. rewrite MM. split.
      * intros [X|(A & B & Q)]; [discriminate|auto].
      * intros ([<-|A] & B & Q); auto. exfalso. apply (L1 b B). auto.
    + constructor; auto. rewrite ML. intros [A _]. destruct (Fl' l A) as [GX BX]. apply before_label in BX; auto.
  - destruct (IHr Gl Gr2 Sl Sr1) as [ML MR MM MN].
    assert (B0 : before r l) by (unfold before; rewrite compare_opp, E by auto; reflexivity).
    assert (R1 : forall x, In x (l :: ls) -> label x <> label r).
    { intros x X. apply not_eq_sym. destruct X as [<-|X]; [apply before_label; auto|].
      destruct (Fl' x X) as [GX BX]. apply before_label; auto. unfold before in *. eapply compare_trans with (b := l); auto. }
    constructor.
    + intros k. cbn [In] in *. rewrite ML. split.
      * intros [X|[K N]]; [discriminate|]. split; auto. intros x [<-|X]; auto. apply not_eq_sym. apply R1. exact K.
      * intros [K N]. right. split; auto.
    + intros k. cbn [In] in *. rewrite MR. split.
      * intros [X|[K N]]; [injection X as <-; split; auto|]. split; auto.
      * intros [[<-|K] N]; auto.
    + intros a b. cbn [In] in *. rewrite MM. split.
      * intros [X|(A & B & Q)]; [discriminate|auto].
      * intros (A & [<-|B] & Q); auto. exfalso. apply (R1 a A). auto.
    + constructor; auto. rewrite MR. intros [A _]. destruct (Fr' r A) as [GX BX]. apply before_label in BX; auto.
Qed.

(** * The keys of one item *)
Lemma dict_keys_from_in ks : forall i k, In k (dict_keys_from i ks) <->
  exists j v, nth_error ks j = Some v /\ (k = KDictKey (i + j) v \/ k = KDictValue (i + j) v).
Proof.
  induction ks as [|x ks IH]; intros i k; cbn.
  - split; [intros []|]. intros ([|j] & v & H & _); discriminate.
  - rewrite IH. split.
    + intros [<-|[<-|(j & v & H & K)]].
      * exists 0, x. rewrite Nat.add_0_r. auto.
      * exists 0, x. rewrite Nat.add_0_r. auto.
      * exists (S j), v. rewrite Nat.add_succ_r. auto.
    + intros ([|j] & v & H & K); cbn in H.
      * injection H as ->. rewrite Nat.add_0_r in K. destruct K as [->| ->]; auto.
      * right. right. exists j, v. rewrite Nat.add_succ_r in K. auto.
Qed.

(** What [get_transitions] gives for the keys of well formed bags *)
Record good_keys (l : list key) : Prop := {
  gk_good : Forall good_key l;
  gk_nodup : NoDup (map label l);
  gk_place : forall a b, In a l -> In b l -> same_place a b = true -> a = b }.

Lemma dict_keys_from_labels ks : forall i, 
  (forall a b k k', nth_error ks a = Some k -> nth_error ks b = Some k' -> item_eqb k k' = true -> a = b) ->
  (forall k, In k ks -> is_nan k = false) ->
  NoDup (map label (dict_keys_from i ks)).
Proof.
  induction ks as [|x ks IH]; intros i D N; cbn; [constructor|].
  assert (X : forall j v, nth_error ks j = Some v -> v <> x).
  { intros j v J ->. assert (Q : 0 = S j); [|discriminate]. apply (D 0 (S j) x x); auto.
    apply item_eqb_iff; auto; apply N; left; reflexivity. }
  assert (IH' : NoDup (map label (dict_keys_from (S i) ks))).
  { apply IH; auto.
    - intros a b k k' A B E. assert (Q : S a = S b) by (apply (D (S a) (S b) k k'); auto). congruence.
    - intros k K. apply N. right. exact K. }
  constructor; [|constructor; auto].
  - intros [H|H]; [discriminate|]. rewrite in_map_iff in H. destruct H as (k & E & K).
    apply dict_keys_from_in in K. destruct K as (j & v & J & [->| ->]); cbn in E; [|discriminate].
    injection E as ->. apply (X j x J). reflexivity.
  - intros H. rewrite in_map_iff in H. destruct H as (k & E & K).
    apply dict_keys_from_in in K. destruct K as (j & v & J & [->| ->]); cbn in E; [discriminate|].
    injection E as ->. apply (X j x J). reflexivity.
Qed.

Lemma bind_ok {A B} (r : res A) (f : A -> res B) x : bind r f = Ok x -> exists a, r = Ok a /\ f a = Ok x.
Proof. destruct r; cbn; [eauto|discriminate]. Qed.
Ltac inv_bind H := let a := fresh "a" in let E := fresh "E" in
  apply bind_ok in H; destruct H as (a & E & H).

Lemma has_name_iff a l : has_name a l = true <-> In a l.
Proof.
  unfold has_name. rewrite existsb_exists. split.
  - intros (x & X & E). apply String.eqb_eq in E. congruence.
  - intros H. exists a. split; auto. apply String.eqb_refl.
Qed.
Lemma has_name_false a l : has_name a l = false <-> ~ In a l.
Proof. rewrite <- has_name_iff. destruct (has_name a l); intuition congruence. Qed.
Lemma is_special_iff a : is_special a = true <-> a = kName \/ a = kMetadata.
Proof. unfold is_special. rewrite orb_true_iff, !String.eqb_eq. tauto. Qed.

(** The three shapes of the fields of an item *)
Inductive shape_of (b : bag) (x s : item) : tset -> Prop :=
| shape_list t l : list_type b s t -> b_list b x = Ok l -> shape_of b x s (TSList t l)
| shape_dict kt vt ks vs : dict_type b s kt vt -> b_keys b x = Ok ks -> b_values b x = Ok vs ->
    shape_of b x s (TSDict kt vt ks vs)
| shape_entity names : entity_attrs b s names ->
    shape_of b x s (TSAttrs false (filter (fun a => negb (is_special a)) names))
| shape_schema names : s = DType TSchema -> followed x -> b_names b x = Ok names -> shape_of b x s (TSAttrs true names)
| shape_nofollow n : s = Obj KNoFollow n -> shape_of b x s TSEmpty
| shape_schema_none : s = DType TSchema -> ~ followed x -> shape_of b x s TSEmpty
| shape_dtype d : s = DType d -> d <> TSchema -> shape_of b x s TSEmpty.

Lemma transitions_shape b x s ts : wf_bag b -> get_transitions b x s = Ok ts -> shape_of b x s ts.
Proof.
  intros W. unfold get_transitions. destruct s as [|k n|w v|w v|t v|s|d]; try discriminate.
  - assert (G : k <> KNoFollow ->
      (do names <- b_names b (Obj k n);
      if has_name kItems names then
        if length names =? 1 then list_transitions b x (Obj k n) else Err ErrListSchema
      else if has_name kKeys names || has_name kValues names then
        if (length names =? 2) && has_name kKeys names && has_name kValues names
        then dict_transitions b x (Obj k n) else Err ErrDictSchema
      else Ok (TSAttrs false (filter (fun a => negb (is_special a)) names))) = Ok ts -> shape_of b x (Obj k n) ts).
    { intros K H. inv_bind H. assert (FO : followed (Obj k n)) by (exists k, n; auto).
      destruct (has_name kItems a) eqn:I.
      - destruct (Nat.eqb_spec (length a) 1) as [L|]; [|discriminate].
        apply has_name_iff in I. destruct a as [|y [|? ?]]; try discriminate. destruct I as [->|[]].
        unfold list_transitions in H. inv_bind H. inv_bind H. injection H as <-.
        apply shape_list; auto. split; [auto|split; auto].
      - destruct (has_name kKeys a || has_name kValues a) eqn:D.
        + destruct ((length a =? 2) && has_name kKeys a && has_name kValues a) eqn:C; [|discriminate].
          rewrite !andb_true_iff in C. destruct C as [[L Ck] Cv]. apply Nat.eqb_eq in L.
          apply has_name_iff in Ck, Cv. destruct a as [|y [|z [|? ?]]]; try discriminate.
          unfold dict_transitions in H. do 4 inv_bind H. injection H as <-.
          apply shape_dict; auto. split; [auto|]. split; [|auto].
          cbn in Ck, Cv. destruct Ck as [->|[->|[]]]; destruct Cv as [Cv|[Cv|[]]]; subst; auto; discriminate.
        + injection H as <-. apply shape_entity. rewrite orb_false_iff in D. destruct D as [D1 D2].
          apply has_name_false in I, D1, D2. repeat split; auto. }
    unfold entity_transitions. destruct k; try (apply G; discriminate).
    intros H. injection H as <-. eapply shape_nofollow. reflexivity.
  - destruct d; try (intros H; injection H as <-; eapply shape_dtype; [reflexivity|discriminate]).
    unfold schema_transitions. intros H.
    destruct x as [|k n|w v|w v|t v|s|d]; try (injection H as <-; apply shape_schema_none; auto; intros (? & ? & ? & _); discriminate).
    assert (G : k <> KNoFollow -> (do names <- b_names b (Obj k n); Ok (TSAttrs true names)) = Ok ts ->
                shape_of b (Obj k n) (DType TSchema) ts).
    { intros K Q. inv_bind Q. injection Q as <-. apply shape_schema; auto. exists k, n. auto. }
    destruct k; try (apply G; [discriminate|exact H]).
    injection H as <-. apply shape_schema_none; auto. intros (? & ? & X & ?). congruence.
Qed.

Lemma good_text a : good_key (KAttr a). Proof. split; cbn; auto. Qed.

Lemma transitions_good b x s ts : wf_bag b -> get_transitions b x s = Ok ts -> good_keys (transition_keys ts).
Proof.
  intros W H. apply transitions_shape in H; auto.
  assert (GA : forall (c : bool) names, NoDup names -> good_keys (map (if c then KSchemaName else KAttr) names)).
  { intros c names N. constructor.
    - rewrite Forall_forall. intros k K. rewrite in_map_iff in K. destruct K as (a & <- & _). destruct c; split; cbn; auto.
    - rewrite map_map. apply nodup_map_inj; auto. destruct c; cbn; congruence.
    - intros p q P Q E. rewrite in_map_iff in P, Q. destruct P as (a & <- & _), Q as (a' & <- & _).
      destruct c; cbn in E; apply String.eqb_eq in E; congruence. }
  assert (G0 : good_keys []).
  { constructor; [constructor|constructor|intros ? ? []]. }
  destruct H as [t l L B|kt vt ks vs D K V|names E|names E F N| n E | E F | d E D].
  - destruct l as [|y l]; cbn [transition_keys].
    + constructor; [repeat constructor|repeat constructor; auto|].
      intros a b0 [<-|[]] [<-|[]] _. reflexivity.
    + constructor.
      * rewrite Forall_forall. intros k K. rewrite in_map_iff in K. destruct K as (i & <- & _). split; cbn; auto.
      * rewrite map_map. apply nodup_map_inj; [cbn; congruence|]. apply seq_NoDup.
      * intros p q P Q X. rewrite in_map_iff in P, Q. destruct P as (i & <- & _), Q as (j & <- & _).
        cbn in X. apply Nat.eqb_eq in X. congruence.
  - destruct (wf_keys _ W _ _ K) as [KD KN].
    assert (G : good_keys (dict_keys_from 0 ks)).
    { constructor.
      - rewrite Forall_forall. intros k Hk. apply dict_keys_from_in in Hk. destruct Hk as (j & v & J & Hk).
        apply nth_error_In in J. apply KN in J. destruct Hk as [->| ->]; split; cbn; auto.
      - apply dict_keys_from_labels; auto.
      - intros p q P Q X. apply dict_keys_from_in in P, Q.
        destruct P as (i & v & I & [->| ->]), Q as (j & w & J & [->| ->]); cbn in X; try discriminate.
        assert (i = j) by (eapply KD; eauto). subst j. congruence. }
    destruct ks as [|y ks]; cbn [transition_keys]; auto.
    constructor.
    + repeat constructor.
    + cbn. constructor; [intros [X|[]]; discriminate|]. constructor; [intros []|constructor].
    + intros a b0 [<-|[<-|[]]] [<-|[<-|[]]] X; auto; discriminate.
  - destruct E as (_ & E & _). apply (GA false). apply NoDup_filter. eapply wf_names; eauto.
  - apply (GA true). eapply wf_names; eauto.
  - exact G0.
  - exact G0.
  - exact G0.
Qed.

Lemma schema_of_schema_attr_eq a : schema_of_schema_attr a =
  DType (if string_dec a "__schema_name__" then TString
         else if string_dec a "__schema_metadata__" then TObject else TSchema).
Proof.
  unfold schema_of_schema_attr.
  destruct (String.eqb_spec a kName); destruct (string_dec a "__schema_name__"); try contradiction; auto.
  destruct (String.eqb_spec a kMetadata); destruct (string_dec a "__schema_metadata__"); try contradiction; auto.
Qed.

Lemma leads_of_key b x s ts k n : wf_bag b -> get_transitions b x s = Ok ts -> In k (transition_keys ts) ->
  by_key b x s ts k = Ok n -> exists f, field_of k = Some f /\ leads b x s f n.
Proof.
  intros W H K B. apply transitions_shape in H; auto.
  destruct H as [t l L E|kt vt ks vs D Ek Ev|names E|names E F N| m E | E F | d E D];
    try (cbn in K; contradiction).
  - destruct l as [|y l]; cbn [transition_keys] in K.
    + destruct K as [<-|[]]. cbn in B. injection B as <-. eexists. split; [reflexivity|]. eapply leads_item_schema; eauto.
    + rewrite in_map_iff in K. destruct K as (i & <- & _). unfold by_key in B. inv_bind B. injection B as <-.
      unfold nth_res in E0. destruct (nth_error (y :: l) i) eqn:Z; [|discriminate]. injection E0 as ->.
      eexists. split; [reflexivity|]. eapply leads_item; eauto.
  - assert (KS : ks = [] /\ (k = KDictNoKeys \/ k = KDictNoValues) \/ In k (dict_keys_from 0 ks)).
    { destruct ks as [|y ks]; cbn [transition_keys] in K; auto. destruct K as [<-|[<-|[]]]; auto. }
    destruct KS as [[-> [->| ->]]|KS].
    + cbn in B. injection B as <-. eexists. split; [reflexivity|]. eapply leads_key_schema; eauto.
    + cbn in B. injection B as <-. eexists. split; [reflexivity|]. eapply leads_value_schema; eauto.
    + apply dict_keys_from_in in KS. destruct KS as (j & v & J & [->| ->]); cbn [Nat.add] in *; unfold by_key in B.
      * injection B as <-. eexists. split; [reflexivity|]. eapply leads_key; eauto.
      * inv_bind B. injection B as <-. unfold nth_res in E. destruct (nth_error vs j) eqn:Z; [|discriminate].
        injection E as ->. eexists. split; [reflexivity|]. eapply leads_value; eauto.
  - cbn [transition_keys] in K. rewrite in_map_iff in K. destruct K as (a & <- & A).
    rewrite filter_In in A. destruct A as [A S]. rewrite negb_true_iff in S.
    assert (SP : a <> kName /\ a <> kMetadata).
    { split; intros ->; rewrite <- not_true_iff_false, is_special_iff in S; tauto. }
    unfold by_key in B. inv_bind B. inv_bind B. injection B as <-.
    eexists. split; [reflexivity|]. eapply leads_attr; eauto; apply SP.
  - cbn [transition_keys] in K. rewrite in_map_iff in K. destruct K as (a & <- & A).
    unfold by_key in B. inv_bind B. injection B as <-. rewrite schema_of_schema_attr_eq.
    eexists. split; [reflexivity|]. eapply leads_schema_attr; eauto.
Qed.

Ltac fin := repeat match goal with
  | H : followed _ |- _ => destruct H as (? & ? & ? & ?)
  end; subst; try congruence; try discriminate.

Lemma key_of_leads b x s ts f n : wf_bag b -> get_transitions b x s = Ok ts -> leads b x s f n ->
  exists k, In k (transition_keys ts) /\ field_of k = Some f /\ by_key b x s ts k = Ok n.
Proof.
  intros W H L. apply transitions_shape in H; auto.
  assert (NF : forall t, followed t -> forall m, t <> Obj KNoFollow m).
  { intros t (k & m & -> & K) m' Q. congruence. }
  assert (ND : forall t, followed t -> forall d, t <> DType d).
  { intros t (k & m & -> & K) d Q. congruence. }
  destruct L as [t l i y LT LL LN|t LT LL|kt vt ks vs i k DT DK DV DN|kt vt ks vs i k v DT DK DV DN DVN
                |kt vt vs DT DK DV|kt vt vs DT DK DV|names a v t ET A NN NM VA TA|names a t SE FX NE A TA].
  - destruct LT as (F & N & T).
    destruct H as [t' l' (F' & N' & T') L'|kt vt ks vs (F' & [N'|N'] & _) _ _|names (F' & N' & NI & _)|names E _ _|m E|E _|d E _];
      try congruence; try (exfalso; eapply NF; eauto; fail); try (exfalso; eapply ND; eauto; fail).
    2:{ exfalso. assert (names = ["__items__"]) by congruence. subst. apply NI. left. reflexivity. }
    assert (t' = t) by congruence. assert (l' = l) by congruence. subst. exists (KListItem i). split; [|split; auto].
    + destruct l as [|z l]; [destruct i; discriminate|]. cbn [transition_keys].
      apply in_map. apply in_seq. split; [lia|]. apply nth_error_Some. congruence.
    + unfold by_key, nth_res. rewrite LN. reflexivity.
  - destruct LT as (F & N & T).
    destruct H as [t' l' (F' & N' & T') L'|kt vt ks vs (F' & [N'|N'] & _) _ _|names (F' & N' & NI & _)|names E _ _|m E|E _|d E _];
      try congruence; try (exfalso; eapply NF; eauto; fail); try (exfalso; eapply ND; eauto; fail).
    2:{ exfalso. assert (names = ["__items__"]) by congruence. subst. apply NI. left. reflexivity. }
    assert (t' = t) by congruence. assert (l' = []) by congruence. subst. exists KListNoItems. cbn. auto.
  - destruct DT as (F & N & T1 & T2).
    destruct H as [t' l' (F' & N' & T') L'|kt' vt' ks' vs' (F' & N' & T1' & T2') K' V'|names (F' & N' & _ & NK & _)|names E _ _|m E|E _|d E _];
      try (destruct N; congruence); try (exfalso; eapply NF; eauto; fail); try (exfalso; eapply ND; eauto; fail).
    2:{ exfalso. apply NK. destruct N as [N|N]; rewrite N in N'; injection N' as <-; cbn; auto. }
    assert (kt' = kt) by congruence. assert (vt' = vt) by congruence. assert (ks' = ks) by congruence.
    assert (vs' = vs) by congruence. subst. exists (KDictKey i k). split; [|split; auto].
    assert (In (KDictKey i k) (dict_keys_from 0 ks)) by (apply dict_keys_from_in; exists i, k; auto).
    destruct ks; [destruct i; discriminate|]. exact H.
  - destruct DT as (F & N & T1 & T2).
    destruct H as [t' l' (F' & N' & T') L'|kt' vt' ks' vs' (F' & N' & T1' & T2') K' V'|names (F' & N' & _ & NK & _)|names E _ _|m E|E _|d E _];
      try (destruct N; congruence); try (exfalso; eapply NF; eauto; fail); try (exfalso; eapply ND; eauto; fail).
    2:{ exfalso. apply NK. destruct N as [N|N]; rewrite N in N'; injection N' as <-; cbn; auto. }
    assert (kt' = kt) by congruence. assert (vt' = vt) by congruence. assert (ks' = ks) by congruence.
    assert (vs' = vs) by congruence. subst. exists (KDictValue i k). split; [|split; auto].
    + assert (In (KDictValue i k) (dict_keys_from 0 ks)) by (apply dict_keys_from_in; exists i, k; auto).
      destruct ks; [destruct i; discriminate|]. exact H.
    + unfold by_key, nth_res. rewrite DVN. reflexivity.
  - destruct DT as (F & N & T1 & T2).
    destruct H as [t' l' (F' & N' & T') L'|kt' vt' ks' vs' (F' & N' & T1' & T2') K' V'|names (F' & N' & _ & NK & _)|names E _ _|m E|E _|d E _];
      try (destruct N; congruence); try (exfalso; eapply NF; eauto; fail); try (exfalso; eapply ND; eauto; fail).
    2:{ exfalso. apply NK. destruct N as [N|N]; rewrite N in N'; injection N' as <-; cbn; auto. }
    assert (kt' = kt) by congruence. assert (vt' = vt) by congruence. assert (ks' = []) by congruence.
    subst. exists KDictNoKeys. cbn. auto.
  - destruct DT as (F & N & T1 & T2).
    destruct H as [t' l' (F' & N' & T') L'|kt' vt' ks' vs' (F' & N' & T1' & T2') K' V'|names (F' & N' & _ & NK & _)|names E _ _|m E|E _|d E _];
      try (destruct N; congruence); try (exfalso; eapply NF; eauto; fail); try (exfalso; eapply ND; eauto; fail).
    2:{ exfalso. apply NK. destruct N as [N|N]; rewrite N in N'; injection N' as <-; cbn; auto. }
    assert (kt' = kt) by congruence. assert (vt' = vt) by congruence. assert (ks' = []) by congruence.
    subst. exists KDictNoValues. cbn. auto.
  - destruct ET as (F & N & NI & NK & NV).
    destruct H as [t' l' (F' & N' & T') L'|kt' vt' ks' vs' (F' & N' & T1' & T2') K' V'|names' (F' & N' & _)|names' E _ _|m E|E _|d E _];
      try (exfalso; eapply NF; eauto; fail); try (exfalso; eapply ND; eauto; fail).
    + exfalso. rewrite N' in N. injection N as <-. apply NI. left. reflexivity.
    + exfalso. apply NK. destruct N' as [N'|N']; rewrite N' in N; injection N as <-; cbn; auto.
    + assert (names' = names) by congruence. subst. exists (KAttr a). split; [|split; auto].
      * cbn [transition_keys]. apply in_map. apply filter_In. split; auto. rewrite negb_true_iff, <- not_true_iff_false, is_special_iff.
        unfold kName, kMetadata. tauto.
      * unfold by_key. rewrite VA. cbn [bind]. rewrite TA. reflexivity.
  - subst s.
    destruct H as [t' l' (F' & N' & T') L'|kt' vt' ks' vs' (F' & N' & T1' & T2') K' V'|names' (F' & N' & _)|names' E F N|m E|E F|d E D];
      try (exfalso; apply (ND _ F' TSchema); reflexivity); try congruence; try contradiction.
    assert (names' = names) by congruence. subst. exists (KSchemaName a). split; [|split; auto].
    + cbn [transition_keys]. apply in_map. exact A.
    + unfold by_key. rewrite TA. cbn [bind]. rewrite schema_of_schema_attr_eq. reflexivity.
Qed.

(** * Own schemas *)
Lemma resolve_own b n s : resolve b n = Ok s -> own_schema b n s.
Proof.
  unfold resolve. destruct n as [x t]. cbn [n_item n_schema].
  assert (G : ~ (t = DType TObject /\ exists k m, x = Obj k m) -> Ok t = Ok s -> own_schema b (mkNode x t) s).
  { intros N E. injection E as <-. right. auto. }
  destruct t as [|k' n'|w v|w v|t v|u|d]; try (apply G; intros [? ?]; discriminate).
  destruct d; try (apply G; intros [? ?]; discriminate).
  destruct x as [|k n|w v|w v|t v|u|d]; try (apply G; intros [? (? & ? & ?)]; discriminate).
  intros H. inv_bind H. destruct (has_value a) eqn:V; [|discriminate]. injection H as <-.
  left. cbn. repeat split; eauto. intros ->. discriminate.
Qed.
Lemma own_unique b n s s' : own_schema b n s -> own_schema b n s' -> s = s'.
Proof. intros [(A & B & C & D)|[A B]] [(A' & B' & C' & D')|[A' B']]; try congruence; exfalso; [apply A'|apply A]; auto. Qed.
Lemma own_resolve b n s : own_schema b n s -> resolve b n = Ok s.
Proof.
  unfold resolve. destruct n as [x t]. intros [(A & (k & m & B) & C & D)|[A B]]; cbn [n_item n_schema] in *.
  - subst. unfold kSchemaAttr. rewrite C. cbn. destruct s; try reflexivity. congruence.
  - subst. destruct t as [|k' n'|w v|w v|t v|u|d]; auto. destruct d; auto.
    destruct x as [|k n|w v|w v|t v|u|d]; auto. exfalso. apply A. eauto.
Qed.

Lemma goes_iff b n s ts : wf_bag b -> resolve b n = Ok s -> get_transitions b (n_item n) s = Ok ts ->
  forall f n', goes b n f n' <->
    exists k, In k (transition_keys ts) /\ field_of k = Some f /\ by_key b (n_item n) s ts k = Ok n'.
Proof.
  intros W R T f n'. split.
  - intros (s' & O & L). assert (s' = s) by (eapply own_unique; eauto using resolve_own). subst.
    eapply key_of_leads; eauto.
  - intros (k & K & F & B). destruct (leads_of_key _ _ _ _ _ _ W T K B) as (f' & F' & L).
    exists s. split; [apply resolve_own; auto|]. congruence.
Qed.

(** * Fields are functions *)
Lemma leads_fun b x s f n n' : wf_bag b -> leads b x s f n -> leads b x s f n' -> n = n'.
Proof.
  intros W A B.
  destruct A as [t l i y LT LL LN|t LT LL|kt vt ks vs i k DT DK DV DN|kt vt ks vs i k v DT DK DV DN DVN
                |kt vt vs DT DK DV|kt vt vs DT DK DV|names a v t ET A NN NM VA TA|names a t SE FX NE A TA];
    inversion B; subst; clear B; unfold list_type, dict_type in *;
    try (destruct LT as (? & ? & ?)); try (destruct DT as (? & ? & ? & ?));
    repeat match goal with H : _ /\ _ |- _ => destruct H end; try congruence.
  destruct (wf_keys _ W _ _ DK) as [KD KN].
  assert (ks0 = ks) by congruence. assert (vs0 = vs) by congruence. subst.
  assert (i = i0).
  { eapply KD; eauto. apply item_eqb_iff; auto; apply KN; eapply nth_error_In; eauto. }
  subst. congruence.
Qed.
Lemma goes_fun b n f a a' : wf_bag b -> goes b n f a -> goes b n f a' -> a = a'.
Proof. intros W (s & O & L) (s' & O' & L'). assert (s = s') by (eapply own_unique; eauto). subst. eapply leads_fun; eauto. Qed.

Lemma goes_primitive b n f n' : wf_bag b -> primitive (n_item n) -> goes b n f n' -> False.
Proof.
  intros W P (s & O & L). destruct (wf_prim _ W _ P) as (A & B & C).
  destruct L; try (eapply A; eauto; fail); try (eapply B; eauto; fail); try (eapply C; eauto; fail).
  destruct P as [_ P]. destruct H0 as (k & m & E & _). eapply P; eauto.
Qed.

(** * Equality *)
Lemma item_eqb_same a b : item_eqb a b = true <-> same_item a b.
Proof.
  split.
  - intros E. destruct a as [|k n|w v|w [v|]|t v|s|d]; destruct b as [|k' n'|w' v'|w' [v'|]|t' v'|s'|d'];
      try (unfold item_eqb in E; match type of E with (if ?c then _ else _) = _ => destruct c as [Q|] end;
           [try rewrite <- Q; apply same_refl; reflexivity|discriminate]);
      try discriminate; apply Z.eqb_eq in E; subst; constructor.
  - intros H. inversion H; subst; cbn; try apply Z.eqb_refl. apply item_eqb_iff; auto.
Qed.
Lemma same_dtype x d : same_item x (DType d) <-> x = DType d.
Proof. split; [intros H; inversion H; reflexivity|]. intros ->. apply same_refl. reflexivity. Qed.
Lemma same_obj a b : is_obj a = true -> same_item a b <-> a = b.
Proof. intros O. split; [intros H; inversion H; subst; auto; discriminate|]. intros <-. apply same_refl. destruct a; try discriminate; reflexivity. Qed.
Lemma schema_mismatch_iff p l r : schema_mismatch p l r = true <->
  p_schemas p = true /\ ~ same_item (n_schema l) (n_schema r).
Proof.
  unfold schema_mismatch. rewrite andb_true_iff, negb_true_iff, <- not_true_iff_false, item_eqb_same. tauto.
Qed.
Lemma same_class_iff a b : same_class a b <-> is_list a = is_list b /\ is_dict a = is_dict b /\ is_schema a = is_schema b.
Proof.
  unfold same_class. split.
  - destruct a as [|k ?| | | | |], b as [|k' ?| | | | |]; try destruct k; try destruct k'; cbn; intros E; try discriminate E; auto.
  - intros (A & B & C). destruct a as [|k ?| | | | |], b as [|k' ?| | | | |]; try destruct k; try destruct k'; cbn in *; congruence.
Qed.

Lemma equal_iff p l r : equal p l r = true <-> alike p l r.
Proof.
  unfold equal, alike. destruct (schema_mismatch p l r) eqn:M.
  { apply schema_mismatch_iff in M. split; [discriminate|]. intros [A _]. tauto. }
  assert (MS : p_schemas p = true -> same_item (n_schema l) (n_schema r)).
  { intros P. rewrite <- not_true_iff_false, schema_mismatch_iff in M. rewrite <- item_eqb_same in *.
    destruct (item_eqb (n_schema l) (n_schema r)); intuition congruence. }
  destruct (is_obj (n_item l)) eqn:L; destruct (is_obj (n_item r)) eqn:R; destruct (p_ids p) eqn:I; cbn [negb orb andb].
  2:{ rewrite same_class_iff.
      destruct (is_list (n_item l)), (is_list (n_item r)); cbn [Bool.eqb negb]; try (split; [discriminate|intuition discriminate]);
      destruct (is_dict (n_item l)), (is_dict (n_item r)); cbn [Bool.eqb negb]; try (split; [discriminate|intuition discriminate]);
      destruct (is_schema (n_item l)), (is_schema (n_item r)); cbn [Bool.eqb negb]; try (split; [discriminate|intuition discriminate]);
      (destruct (item_eqb (n_schema l) (DType TItemId)) eqn:Q;
       [ apply item_eqb_same, same_dtype in Q; rewrite andb_true_iff, !item_eqb_same, Q, same_dtype, same_obj by assumption;
         intuition congruence
       | split; [intros _; split; [auto|]; split; [auto|]; intros S; exfalso; rewrite S in Q; discriminate | reflexivity ] ]). }
  all: destruct (is_nan (n_item l)) eqn:NL; destruct (is_nan (n_item r)) eqn:NR; cbn [andb]; rewrite ?item_eqb_same; intuition congruence.
Qed.
