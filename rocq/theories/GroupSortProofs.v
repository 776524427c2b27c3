(** Sorting, and the ids of a row after each key. *)
From Coq Require Import List Bool Arith Lia Permutation Sorted.
From Verif Require Import SliceOpsModel GroupModel GroupSpec GroupAssignProofs.
Import ListNotations.
Local Open Scope nat_scope.
Local Open Scope list_scope.

Section Sorting.
Variables (A : Type) (lt : A -> A -> bool).
Lemma insert_perm x : forall l, Permutation (insert_sorted A lt x l) (x :: l).
Proof.
  induction l as [| y l IH]; cbn; [reflexivity |]. destruct (lt y x); [| reflexivity].
  rewrite IH. apply perm_swap.
Qed.
Lemma sort_perm : forall l, Permutation (sort_list A lt l) l.
Proof. induction l as [| x l IH]; cbn; [reflexivity |]. rewrite insert_perm, IH. reflexivity. Qed.
Lemma insert_ss (P : A -> Prop) x :
  (forall a b c, P a -> P b -> P c -> lt a b = true -> lt b c = true -> lt a c = true) -> P x ->
  forall l, Forall P l -> Forall (fun y => lt x y = true \/ lt y x = true) l ->
  StronglySorted (fun a b => lt a b = true) l -> StronglySorted (fun a b => lt a b = true) (insert_sorted A lt x l).
Proof.
  intros Tr Px. induction l as [| y l IH]; intros Pl C Q; cbn; [repeat constructor |].
  inversion Pl as [| ? ? Py Pl']; subst. inversion C as [| ? ? Cy C']; subst. inversion Q as [| ? ? Q' Fy]; subst.
  destruct (lt y x) eqn:E.
  - constructor; [exact (IH Pl' C' Q') |].
    apply (Permutation_Forall (Permutation_sym (insert_perm x l))). constructor; [exact E | exact Fy].
  - assert (L : lt x y = true) by (destruct Cy; congruence).
    constructor; [exact Q |]. constructor; [exact L |].
    rewrite Forall_forall in *. intros z I. apply (Tr x y z); auto.
Qed.
Lemma sort_ss (P : A -> Prop) :
  (forall a b c, P a -> P b -> P c -> lt a b = true -> lt b c = true -> lt a c = true) ->
  forall l, Forall P l -> ForallOrdPairs (fun a b => lt a b = true \/ lt b a = true) l ->
  StronglySorted (fun a b => lt a b = true) (sort_list A lt l).
Proof.
  intros Tr. induction l as [| x l IH]; intros Pl C; cbn; [constructor |].
  inversion Pl as [| ? ? Px Pl']; subst. inversion C as [| ? ? Cx C']; subst.
  apply (insert_ss P); auto.
  - apply (Permutation_Forall (Permutation_sym (sort_perm l))). exact Pl'.
  - apply (Permutation_Forall (Permutation_sym (sort_perm l))). exact Cx.
Qed.
End Sorting.

Lemma ss_nth {A} (R : A -> A -> Prop) : forall l, StronglySorted R l ->
  forall a b x y, a < b -> nth_error l a = Some x -> nth_error l b = Some y -> R x y.
Proof.
  induction 1 as [| z l Q IH F]; intros a b x y L X Y.
  - destruct a; discriminate.
  - destruct b as [| b]; [lia |]. destruct a as [| a]; cbn in X, Y.
    + assert (z = x) by congruence. subst z. rewrite Forall_forall in F. apply F. apply nth_error_In in Y. exact Y.
    + apply (IH a b); auto. lia.
Qed.
Lemma fop_of_nth {A} (R : A -> A -> Prop) : forall l,
  (forall a b x y, a < b -> nth_error l a = Some x -> nth_error l b = Some y -> R x y) -> ForallOrdPairs R l.
Proof.
  induction l as [| z l IH]; intros H; constructor.
  - rewrite Forall_forall. intros y I. apply In_nth_error in I. destruct I as [b I].
    apply (H 0 (S b)); auto. lia.
  - apply IH. intros a b x y L X Y. apply (H (S a) (S b)); auto. lia.
Qed.

Lemma index_of_some : forall l x a, index_of x l = Some a -> nth_error l a = Some x.
Proof.
  induction l as [| y l IH]; intros x a E; cbn in E; [discriminate |].
  destruct (x =? y) eqn:Q.
  - apply Nat.eqb_eq in Q. assert (a = 0) by congruence. subst. reflexivity.
  - destruct (index_of x l) as [b |] eqn:I; [| discriminate]. cbn in E. assert (a = S b) by congruence. subst a.
    exact (IH _ _ I).
Qed.
Lemma index_of_in : forall l x, In x l -> exists a, index_of x l = Some a.
Proof.
  induction l as [| y l IH]; intros x I; [destruct I |]. cbn. destruct (x =? y) eqn:Q; [eauto |].
  apply Nat.eqb_neq in Q. destruct I as [I | I]; [congruence |]. destruct (IH _ I) as [a E]. rewrite E. cbn. eauto.
Qed.

Lemma has_keys_snoc T cols c i : has_keys T (cols ++ [c]) i <-> has_keys T cols i /\ exists v, nth_error c i = Some (Some v).
Proof.
  unfold has_keys. split.
  - intros H. split; [intros d I; apply H; apply in_or_app; auto | apply H; apply in_or_app; right; left; reflexivity].
  - intros [H E] d I. apply in_app_or in I. destruct I as [I | [<- | []]]; auto.
Qed.
Lemma same_keys_snoc T eqb cols c i j : same_keys T eqb (cols ++ [c]) i j <->
  same_keys T eqb cols i j /\
  exists v w, nth_error c i = Some (Some v) /\ nth_error c j = Some (Some w) /\ eqb v w = true.
Proof.
  unfold same_keys. split.
  - intros H. split; [intros d I; apply H; apply in_or_app; auto | apply H; apply in_or_app; right; left; reflexivity].
  - intros [H E] d I. apply in_app_or in I. destruct I as [I | [<- | []]]; auto.
Qed.
Lemma keys_less_snoc T eqb ltb c i j : forall cols, keys_less T eqb ltb (cols ++ [c]) i j <->
  keys_less T eqb ltb cols i j \/ (same_keys T eqb cols i j /\
  exists v w, nth_error c i = Some (Some v) /\ nth_error c j = Some (Some w) /\ ltb v w = true).
Proof.
  induction cols as [| d cols IH]; cbn [app keys_less].
  - split.
    + intros [v [w [V [W [L | [_ []]]]]]]. right. split; [intros d [] | exists v, w; auto].
    + intros [[] | [_ [v [w [V [W L]]]]]]. exists v, w. auto.
  - split.
    + intros [v [w [V [W [L | [Q K]]]]]].
      * left. exists v, w. auto.
      * apply IH in K. destruct K as [K | [K X]].
        -- left. exists v, w. auto.
        -- right. split; [| exact X]. intros e [<- | I]; [exists v, w; auto | exact (K e I)].
    + intros [[v [w [V [W [L | [Q K]]]]]] | [K X]].
      * exists v, w. auto.
      * exists v, w. repeat apply conj; auto. right. split; [exact Q |]. apply IH. left. exact K.
      * destruct (K d (or_introl eq_refl)) as [v [w [V [W Q]]]]. exists v, w. repeat apply conj; auto. right.
        split; [exact Q |]. apply IH. right. split; [| exact X]. intros e I. apply K. right. exact I.
Qed.

Section Keys.
Variable T : Type.
Variables eqb ltb : T -> T -> bool.
Variable P : T -> Prop.
Hypothesis PE : partial_equivalence T eqb.
Hypothesis TO : total_order_on T eqb ltb P.
Notation key := (GroupModel.key T).
Notation key_eqb := (GroupModel.key_eqb T eqb).
Notation key_ltb := (GroupModel.key_ltb T ltb).
Definition Pk (k : key) : Prop := P (snd k).

Lemma ltb_trans a b c : P a -> P b -> P c -> ltb a b = true -> ltb b c = true -> ltb a c = true.
Proof. apply TO. Qed.
Lemma ltb_asym a b : P a -> P b -> ltb a b = true -> eqb a b = false /\ ltb b a = false.
Proof. apply TO. Qed.
Lemma ltb_total a b : P a -> P b -> eqb a b = true \/ ltb a b = true \/ ltb b a = true.
Proof. apply TO. Qed.
Lemma ltb_eqb_l a a' b : P a -> P a' -> P b -> eqb a a' = true -> ltb a b = true -> ltb a' b = true.
Proof.
  intros Pa Pa' Pb E L. destruct (ltb_total a' b Pa' Pb) as [X | [X | X]]; [exfalso | exact X | exfalso].
  - pose proof (proj2 PE _ _ _ E X). destruct (ltb_asym _ _ Pa Pb L). congruence.
  - pose proof (ltb_trans _ _ _ Pa Pb Pa' L X) as Y. destruct (ltb_asym _ _ Pa Pa' Y). congruence.
Qed.
Lemma ltb_eqb_r a b b' : P a -> P b -> P b' -> eqb b b' = true -> ltb a b = true -> ltb a b' = true.
Proof.
  intros Pa Pb Pb' E L. destruct (ltb_total a b' Pa Pb') as [X | [X | X]]; [exfalso | exact X | exfalso].
  - pose proof (proj2 PE _ _ _ X (proj1 PE _ _ E)). destruct (ltb_asym _ _ Pa Pb L). congruence.
  - pose proof (ltb_trans _ _ _ Pb' Pa Pb X L) as Y. destruct (ltb_asym _ _ Pb' Pb Y) as [Z _].
    apply (proj1 PE) in E. congruence.
Qed.

Lemma key_ltb_true (a b : key) : key_ltb a b = true <-> fst a < fst b \/ (fst a = fst b /\ ltb (snd a) (snd b) = true).
Proof. unfold GroupModel.key_ltb. rewrite orb_true_iff, andb_true_iff, Nat.ltb_lt, Nat.eqb_eq. tauto. Qed.
Lemma key_eqb_true (a b : key) : key_eqb a b = true <-> fst a = fst b /\ eqb (snd a) (snd b) = true.
Proof. unfold GroupModel.key_eqb. rewrite andb_true_iff, Nat.eqb_eq. tauto. Qed.
Lemma key_ltb_trans a b c : Pk a -> Pk b -> Pk c -> key_ltb a b = true -> key_ltb b c = true -> key_ltb a c = true.
Proof.
  unfold Pk. rewrite !key_ltb_true. intros Pa Pb Pc [L | [E L]] [M | [F M]].
  - left; lia.
  - left; lia.
  - left; lia.
  - right. split; [lia |]. apply (ltb_trans _ (snd b)); auto.
Qed.
Lemma key_ltb_asym a b : Pk a -> Pk b -> key_ltb a b = true -> key_eqb a b = false /\ key_ltb b a = false.
Proof.
  unfold Pk. intros Pa Pb L. split; apply not_true_is_false; rewrite ?key_eqb_true, ?key_ltb_true;
    apply key_ltb_true in L.
  - intros [E F]. destruct L as [L | [_ L]]; [lia |]. destruct (ltb_asym _ _ Pa Pb L). congruence.
  - intros M. destruct L as [L | [E L]]; destruct M as [M | [F M]]; try lia.
    destruct (ltb_asym _ _ Pa Pb L). congruence.
Qed.
Lemma key_ltb_total a b : Pk a -> Pk b -> key_eqb a b = true \/ key_ltb a b = true \/ key_ltb b a = true.
Proof.
  unfold Pk. intros Pa Pb. rewrite key_eqb_true, !key_ltb_true.
  destruct (Nat.lt_total (fst a) (fst b)) as [L | [L | L]]; [tauto | | tauto].
  destruct (ltb_total _ _ Pa Pb) as [X | [X | X]]; auto.
Qed.
Lemma key_ltb_eqb a a' b b' : Pk a -> Pk a' -> Pk b -> Pk b' -> (a = a' \/ key_eqb a a' = true) ->
  (b = b' \/ key_eqb b b' = true) -> key_ltb a b = true -> key_ltb a' b' = true.
Proof.
  unfold Pk. rewrite !key_eqb_true, !key_ltb_true. intros Pa Pa' Pb Pb' Ea Eb L.
  assert (Fa : fst a = fst a') by (destruct Ea as [-> | [Ea _]]; auto).
  assert (Fb : fst b = fst b') by (destruct Eb as [-> | [Eb _]]; auto).
  destruct L as [L | [E L]]; [left; lia |]. right. split; [lia |].
  assert (L1 : ltb (snd a') (snd b) = true).
  { destruct Ea as [<- | [_ Ea]]; [exact L |]. apply (ltb_eqb_l (snd a)); auto. }
  destruct Eb as [<- | [_ Eb]]; [exact L1 |]. apply (ltb_eqb_r _ (snd b)); auto.
Qed.

Section Index.
Variable ks : list key.
Hypothesis Pks : Forall Pk ks.
Hypothesis Dks : forall p q a b, p < q -> nth_error ks p = Some a -> nth_error ks q = Some b -> key_eqb a b = false.
Let pairs := combine (seq 0 (length ks)) ks.
Let pair_ltb := fun a b : nat * key => key_ltb (snd a) (snd b).
Notation order := (sorted_index T ltb ks).

Lemma combine_seq_nth_l : forall (l : list key) n p x, nth_error (combine (seq n (length l)) l) p = Some x ->
  fst x = n + p /\ nth_error l p = Some (snd x).
Proof.
  induction l as [| k l IH]; intros n p x E; cbn in E; [destruct p; discriminate |].
  destruct p as [| p]; cbn in E.
  - assert (x = (n, k)) by congruence. subst. cbn. split; [lia | reflexivity].
  - destruct (IH _ _ _ E) as [F G]. split; [lia | exact G].
Qed.
Lemma pairs_sorted : StronglySorted (fun a b => pair_ltb a b = true) (sort_list _ pair_ltb pairs).
Proof.
  apply (sort_ss _ _ (fun x => Pk (snd x))).
  - intros a b c. apply key_ltb_trans.
  - apply Forall_forall. intros [n k] I. apply in_combine_r in I. rewrite Forall_forall in Pks. exact (Pks _ I).
  - apply fop_of_nth. intros a b x y L X Y. apply combine_seq_nth_l in X. apply combine_seq_nth_l in Y.
    destruct X as [_ X]. destruct Y as [_ Y]. unfold pair_ltb.
    rewrite Forall_forall in Pks.
    destruct (key_ltb_total (snd x) (snd y)) as [E | E]; [| | | exact E].
    + apply Pks. apply nth_error_In in X. exact X.
    + apply Pks. apply nth_error_In in Y. exact Y.
    + rewrite (Dks _ _ _ _ L X Y) in E. discriminate.
Qed.
Lemma map_fst_combine : forall (l : list key) n, map fst (combine (seq n (length l)) l) = seq n (length l).
Proof. induction l as [| k l IH]; intros n; cbn; [reflexivity |]. rewrite IH. reflexivity. Qed.
Lemma order_perm : Permutation order (seq 0 (length ks)).
Proof.
  unfold sorted_index. rewrite (sort_perm _ _ _). rewrite map_fst_combine. reflexivity.
Qed.
Lemma order_index p : p < length ks -> exists a, index_of p order = Some a /\ a < length ks.
Proof.
  intros L. destruct (index_of_in order p) as [a E].
  { apply (Permutation_in _ (Permutation_sym order_perm)). apply in_seq. lia. }
  exists a. split; [exact E |]. apply index_of_some in E. apply nth_error_lt in E.
  rewrite (Permutation_length order_perm), seq_length in E. exact E.
Qed.
Lemma order_inj p q a : index_of p order = Some a -> index_of q order = Some a -> p = q.
Proof. intros E F. apply index_of_some in E. apply index_of_some in F. congruence. Qed.
Lemma order_key p a : index_of p order = Some a -> exists k,
  nth_error (sort_list _ pair_ltb pairs) a = Some (p, k) /\ nth_error ks p = Some k.
Proof.
  intros E. apply index_of_some in E. unfold sorted_index in E. rewrite nth_error_map in E.
  change (sort_list (nat * key) _ _) with (sort_list _ pair_ltb pairs) in E.
  destruct (nth_error (sort_list _ pair_ltb pairs) a) as [[p' k] |] eqn:N; [| discriminate].
  cbn in E. assert (p' = p) by congruence. subst p'. exists k. split; [reflexivity |].
  apply nth_error_In in N. apply (Permutation_in _ (sort_perm _ _ _)) in N.
  apply In_nth_error in N. destruct N as [i N]. apply combine_seq_nth_l in N. cbn in N. destruct N as [-> N]. exact N.
Qed.
Lemma order_lt p q a b k k' : index_of p order = Some a -> index_of q order = Some b ->
  nth_error ks p = Some k -> nth_error ks q = Some k' -> (a < b <-> key_ltb k k' = true).
Proof.
  intros Ea Eb K K'. destruct (order_key _ _ Ea) as [k1 [N1 M1]]. destruct (order_key _ _ Eb) as [k2 [N2 M2]].
  assert (k1 = k) by congruence. assert (k2 = k') by congruence. subst k1 k2.
  assert (Pa : Pk k) by (rewrite Forall_forall in Pks; apply Pks; apply nth_error_In in K; exact K).
  assert (Pb : Pk k') by (rewrite Forall_forall in Pks; apply Pks; apply nth_error_In in K'; exact K').
  split.
  - intros L. exact (ss_nth _ _ pairs_sorted _ _ _ _ L N1 N2).
  - intros L. destruct (key_ltb_asym _ _ Pa Pb L) as [_ X].
    destruct (Nat.lt_total a b) as [Y | [Y | Y]]; [exact Y | exfalso | exfalso].
    + subst b. assert (p = q) by exact (order_inj _ _ _ Ea Eb). assert (k = k') by congruence. subst k'. congruence.
    + pose proof (ss_nth _ _ pairs_sorted _ _ _ _ Y N2 N1) as Z. unfold pair_ltb in Z. cbn in Z. congruence.
Qed.
End Index.
End Keys.
