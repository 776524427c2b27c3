(** Proofs about translating keys. *)
From Coq Require Import NArith ZArith List Bool Arith Lia Sorted.
From Verif Require Import ObjectIdModel SchemaModel ItemModel DictModel DictProofs SliceModel SliceProofs SliceSpec
  SliceOpsModel SliceOpsSpec SubsliceModel SubsliceSpec SubsliceProofs GroupModel GroupSpec GroupKeysProofs GroupProofs
  TranslateModel TranslateSpec.
Import ListNotations.
Local Open Scope nat_scope.

(** ** Dicts *)
Definition set_kv (d : dict) (x : ditem * ditem) : dict := d_set d (fst x) (snd x).

Lemma set_in_dicts_nth (l : list (nat * (ditem * ditem))) : forall (ds : list dict) (p : nat),
  nth_error (fold_left set_one l ds) p =
  option_map (fold_left set_kv (map snd (filter (fun x => fst x =? p) l))) (nth_error ds p).
Proof.
  induction l as [| [i [k v]] l IH]; intros ds p.
  - cbn. destruct (nth_error ds p); reflexivity.
  - cbn [fold_left]. rewrite IH. unfold set_one at 1. cbn [fst snd filter].
    destruct (nth_error ds i) as [d |] eqn:E.
    + assert (L : i < length ds) by (apply nth_error_Some; congruence).
      rewrite nth_error_upd by exact L. rewrite Nat.eqb_sym. destruct (Nat.eqb_spec i p) as [-> | N].
      * rewrite E. reflexivity.
      * reflexivity.
    + destruct (Nat.eqb_spec i p) as [-> | N]; [| reflexivity]. rewrite E. reflexivity.
Qed.

Lemma possible_supported k : possible_key k <-> unsupported_key (Some k) = false.
Proof. destruct k as [k c]. unfold possible_key. cbn. destruct k; cbn; split; intuition discriminate. Qed.

Lemma set_kv_get d k v j : d_parent d = None -> possible_key k ->
  DictModel.d_get (set_kv d (Some k, v)) j = (if value_eqb k j then Some v else DictModel.d_get d j) /\
  d_parent (set_kv d (Some k, v)) = None.
Proof.
  intros P K. destruct d as [a m p]. cbn in P. subst p. apply possible_supported in K.
  unfold set_kv, d_set. cbn [fst snd]. rewrite K.
  split; [| reflexivity]. cbn [DictModel.d_get]. rewrite DictProofs.m_find_set. destruct (value_eqb k j); [reflexivity |]. destruct (DictModel.m_find m j); reflexivity.
Qed.

Lemma fold_set_absent k : forall (l : list (ditem * ditem)) d, d_parent d = None ->
  (forall j, In (Some j) (map fst l) -> possible_key j) -> ~ In (Some k) (map fst l) ->
  DictModel.d_get (fold_left set_kv l d) k = DictModel.d_get d k.
Proof.
  induction l as [| [[j |] v] l IH]; intros d P K N; [reflexivity | |]; cbn [fold_left].
  - destruct (set_kv_get d j v k P) as [G P']; [apply K; left; reflexivity |].
    rewrite IH; [| exact P' | intros x I; apply K; right; exact I | intros I; apply N; right; exact I].
    rewrite G. destruct (value_eqb_spec j k) as [-> |]; [| reflexivity]. destruct N. left. reflexivity.
  - assert (E : set_kv d (None, v) = d) by (destruct d; reflexivity). rewrite E.
    apply IH; [exact P | intros x I; apply K; right; exact I | intros I; apply N; right; exact I].
Qed.

Definition once (l : list ditem) : Prop := forall i j k, nth_error l i = Some (Some k) -> nth_error l j = Some (Some k) -> i = j.
Lemma once_tl x l : once (x :: l) -> once l.
Proof. intros H i j k A B. assert (S i = S j) by (apply (H (S i) (S j) k); assumption). lia. Qed.

Lemma fold_set_present k v : forall (l : list (ditem * ditem)) d, d_parent d = None ->
  (forall j, In (Some j) (map fst l) -> possible_key j) -> once (map fst l) -> In (Some k, v) l ->
  DictModel.d_get (fold_left set_kv l d) k = Some v.
Proof.
  induction l as [| [k' v'] l IH]; intros d P K O I; [destruct I |]. cbn [fold_left]. destruct I as [E | I].
  - inversion E; subst. destruct (set_kv_get d k v k P) as [G P']; [apply K; left; reflexivity |].
    rewrite fold_set_absent; [| exact P' | intros x Ix; apply K; right; exact Ix |].
    + rewrite G, value_eqb_refl. reflexivity.
    + intros Ik. apply In_nth_error in Ik. destruct Ik as [j Ej].
      assert (X : 0 = S j) by (apply (O 0 (S j) k); [reflexivity | exact Ej]). discriminate X.
  - apply IH; [| intros x Ix; apply K; right; exact Ix | exact (once_tl _ _ O) | exact I].
    destruct k' as [j |]; [| destruct d; exact P]. apply (set_kv_get d j v' k P). apply K. left. reflexivity.
Qed.

Definition row_dict (ks vs : list ditem) : dict := fold_left set_kv (combine ks vs) (mkDict 0 [] None).

Lemma map_fst_combine {A B} : forall (l : list A) (m : list B), length l = length m -> map fst (combine l m) = l.
Proof. induction l as [| x l IH]; intros [| y m] H; cbn in *; try discriminate; auto. f_equal. apply IH. lia. Qed.
Lemma nth_error_combine_ {A B} : forall (l : list A) (m : list B) i a b,
  nth_error l i = Some a -> nth_error m i = Some b -> nth_error (combine l m) i = Some (a, b).
Proof. induction l as [| x l IH]; intros [| y m] [| i] a b H1 H2; cbn in *; try discriminate; try congruence. eauto. Qed.

Lemma get_translated ds id ks vs key : length ks = length vs -> once ks -> (forall k, In (Some k) ks -> possible_key k) ->
  nth_error ds id = Some (row_dict ks vs) -> translated ks vs key (get_one ds id key).
Proof.
  intros L O K E. destruct key as [k |]; [| constructor]. unfold get_one. rewrite E.
  assert (Ef : map fst (combine ks vs) = ks) by (apply map_fst_combine; exact L).
  destruct (in_dec (fun a b : ditem => ltac:(destruct a as [a |], b as [b |];
    [destruct (value_eqb_spec a b) as [H | H]; [left; f_equal; exact H | right; congruence] | right; discriminate | right; discriminate | left; reflexivity]))
    (Some k) ks) as [I | N].
  - apply In_nth_error in I. destruct I as [i Ei].
    assert (Li : i < length vs) by (rewrite <- L; apply nth_error_Some; congruence).
    destruct (nth_error vs i) as [v |] eqn:Ev; [| apply nth_error_None in Ev; lia].
    unfold row_dict. rewrite (fold_set_present k v); [exact (Found _ _ i k v Ei Ev) | reflexivity | | |].
    + rewrite Ef. exact K.
    + rewrite Ef. exact O.
    + apply nth_error_In with i. apply nth_error_combine_; assumption.
  - unfold row_dict. rewrite fold_set_absent; [exact (NotFound _ _ k N) | reflexivity | |]; rewrite Ef; assumption.
Qed.

(** ** Rows *)
Lemma filter_other {A} p o : forall n (l : list A), p <> o -> filter (fun x => fst x =? p) (combine (repeat o n) l) = [].
Proof.
  induction n as [| n IH]; intros [| x l] N; cbn; try reflexivity. rewrite IH by exact N.
  destruct (Nat.eqb_spec o p); [congruence | reflexivity].
Qed.
Lemma filter_own {A} o : forall n (l : list A), length l = n -> map snd (filter (fun x => fst x =? o) (combine (repeat o n) l)) = l.
Proof.
  induction n as [| n IH]; intros [| x l] N; cbn in *; try discriminate; try reflexivity.
  rewrite Nat.eqb_refl. cbn. f_equal. apply IH. lia.
Qed.
Lemma combine_app_ {A B} : forall (a : list A) (c : list B) b d, length a = length c -> combine (a ++ b) (c ++ d) = combine a c ++ combine b d.
Proof. induction a as [| x a IH]; intros [| y c] b d H; cbn in *; try discriminate; try reflexivity. f_equal. apply IH. lia. Qed.

Lemma rows_of {A} : forall e (l : list A) o p, length l = list_sum e -> p < length e ->
  map snd (filter (fun x => fst x =? o + p) (combine (below_it (seq o (length e)) e) l)) = nth p (chunks e l) [].
Proof.
  induction e as [| n e IH]; intros l o p L P; [cbn in P; lia |].
  cbn [length seq] in *. unfold below_it. cbn [map2 concat].
  change (concat (map2 (fun x n => repeat x n) (seq (S o) (length e)) e)) with (below_it (seq (S o) (length e)) e).
  cbn [list_sum fold_right] in L. change (fold_right Nat.add 0 e) with (list_sum e) in L.
  cbn [chunks]. rewrite <- (firstn_skipn n l) at 1.
  rewrite combine_app_ by (rewrite repeat_length, firstn_length; lia).
  rewrite filter_app, map_app.
  assert (Ls : length (skipn n l) = list_sum e) by (rewrite skipn_length; lia).
  destruct p as [| p].
  - rewrite Nat.add_0_r. cbn [nth]. rewrite filter_own by (rewrite firstn_length; lia).
    assert (E : filter (fun x => fst x =? o) (combine (below_it (seq (S o) (length e)) e) (skipn n l)) = []).
    { clear. assert (G : forall (m : list nat) (l : list A), (forall x, In x m -> x <> o) -> filter (fun x => fst x =? o) (combine m l) = []).
      { induction m as [| x m IHm]; intros [| y l'] H; cbn; try reflexivity.
        destruct (Nat.eqb_spec x o) as [-> |]; [destruct (H o); [left |]; reflexivity |]. apply IHm. intros z Iz. apply H. right. exact Iz. }
      apply G. intros x Ix. apply below_in in Ix. apply in_seq in Ix. lia. }
    rewrite E. cbn. apply app_nil_r.
  - cbn [nth]. rewrite filter_other by lia. cbn [map app].
    replace (o + S p) with (S o + p) by lia. apply IH; [exact Ls | lia].
Qed.

Lemma chunks_combine {A B} : forall e (l : list A) (m : list B),
  chunks e (combine l m) = map2 (@combine A B) (chunks e l) (chunks e m).
Proof.
  induction e as [| n e IH]; intros l m; [reflexivity |]. cbn [chunks map2]. f_equal.
  - apply combine_firstn.
  - rewrite <- IH. f_equal. clear. revert l m. induction n as [| n IH]; intros [| x l] [| y m]; cbn; try reflexivity.
    + destruct (skipn n l); reflexivity.
    + apply IH.
Qed.
Lemma chunks_length {A} : forall e (l : list A), length (chunks e l) = length e.
Proof. induction e; intros; cbn; auto. Qed.
Lemma chunks_concat {A} : forall e (l : list A), length l = list_sum e -> concat (chunks e l) = l.
Proof.
  induction e as [| n e IH]; intros l L; cbn in *.
  - destruct l; [reflexivity | discriminate L].
  - rewrite IH; [apply firstn_skipn |]. rewrite skipn_length. change (fold_right Nat.add 0 e) with (list_sum e) in L. lia.
Qed.
Lemma chunk_len {A} : forall e (l : list A) p n, length l = list_sum e -> nth_error e p = Some n -> length (nth p (chunks e l) []) = n.
Proof.
  induction e as [| m e IH]; intros l [| p] n L E; cbn in E; try discriminate; cbn [chunks nth list_sum fold_right] in *;
    change (fold_right Nat.add 0 e) with (list_sum e) in L.
  - inversion E; subst. rewrite firstn_length. lia.
  - apply IH; [rewrite skipn_length; lia | exact E].
Qed.
Lemma nth_map2_combine {A B} : forall (l : list (list A)) (m : list (list B)) p,
  nth p (map2 (@combine A B) l m) [] = combine (nth p l []) (nth p m []).
Proof.
  induction l as [| x l IH]; intros m p.
  - cbn. destruct p; reflexivity.
  - destruct m as [| y m]; [| destruct p; cbn; [reflexivity | apply IH]].
    cbn. destruct p; cbn; [destruct x; reflexivity |]. destruct (nth p l []); reflexivity.
Qed.

(** ** Duplicates *)
Definition present_at (row : list ditem) (i : nat) : bool := match nth_error row i with Some (Some _) => true | _ => false end.
Lemma present_count : forall row : list ditem, length (filter (present_at row) (seq 0 (length row))) = length (filter isSome row).
Proof.
  intros row. assert (G : forall r o, (forall i, i < length r -> nth_error row (o + i) = nth_error r i) ->
    length (filter (present_at row) (seq o (length r))) = length (filter isSome r)).
  { induction r as [| x r IH]; intros o H; [reflexivity |]. cbn [length seq filter].
    assert (E : present_at row o = isSome x).
    { unfold present_at. specialize (H 0 ltac:(cbn; lia)). rewrite Nat.add_0_r in H. rewrite H. destruct x; reflexivity. }
    rewrite E. assert (R : length (filter (present_at row) (seq (S o) (length r))) = length (filter isSome r)).
    { apply IH. intros i Hi. replace (S o + i) with (o + S i) by lia. rewrite (H (S i)) by (cbn; lia). reflexivity. }
    destruct (isSome x); cbn; congruence. }
  apply G. reflexivity.
Qed.
Lemma sorted_nodup l : StronglySorted lt l -> NoDup l.
Proof.
  induction 1 as [| x l S IH F]; constructor; auto. intros I. rewrite Forall_forall in F. apply F in I. lia.
Qed.
Lemma forall2_len {A B} (R : A -> B -> Prop) : forall l m, Forall2 R l m -> length l = length m.
Proof. induction 1; cbn; congruence. Qed.

Lemma row_distinct eqb (nan : value -> Prop) (sym : forall a b, eqb a b = true -> eqb b a = true) row u : first_occurrences value eqb nan row u ->
  length u <= length (filter isSome row) /\
  (length u = length (filter isSome row) <-> distinct (same_value value eqb nan) row).
Proof.
  intros [ps [S [H F]]]. rewrite <- (forall2_len _ _ _ F). rewrite <- present_count.
  set (pres := filter (present_at row) (seq 0 (length row))).
  assert (N : NoDup ps) by (apply sorted_nodup; exact S).
  assert (Np : NoDup pres) by (apply NoDup_filter, seq_NoDup).
  assert (P : forall i, In i pres <-> exists v, nth_error row i = Some (Some v)).
  { intros i. unfold pres. rewrite filter_In, in_seq. unfold present_at. split.
    - intros [_ B]. destruct (nth_error row i) as [[v |] |]; try discriminate. eauto.
    - intros [v E]. rewrite E. split; [| reflexivity]. assert (i < length row) by (apply nth_error_Some; congruence). lia. }
  assert (I : incl ps pres) by (intros i Hi; apply P; apply H in Hi; destruct Hi as [v [E _]]; eauto).
  assert (LE : length ps <= length pres) by (apply NoDup_incl_length; assumption).
  split; [exact LE |]. split.
  - intros L i j v w lt_ij Ei Ej C.
    assert (R : incl pres ps) by (apply NoDup_length_incl; [exact N | lia | exact I]).
    assert (J : In j ps) by (apply R, P; eauto). apply H in J. destruct J as [w' [E' B]].
    assert (w' = w) by congruence. subst w'. exact (B i v lt_ij Ei C).
  - intros D. apply Nat.le_antisymm; [exact LE |]. apply NoDup_incl_length; [exact Np |].
    intros i Hi. apply P in Hi. destruct Hi as [v E]. apply H. exists v. split; [exact E |].
    intros j w lt_ji Ej C. exact (D j i w v lt_ji Ej E C).
Qed.

Lemma rows_distinct eqb nan (sym : forall a b, eqb a b = true -> eqb b a = true) : forall rows us,
  Forall2 (first_occurrences value eqb nan) rows us ->
  length (concat us) <= length (filter isSome (concat rows)) /\
  (length (concat us) = length (filter isSome (concat rows)) <-> Forall (distinct (same_value value eqb nan)) rows).
Proof.
  induction 1 as [| row u rows us F _ [IL IH]]; cbn [concat].
  - split; [cbn; lia |]. split; [constructor | reflexivity].
  - rewrite filter_app, !app_length. destruct (row_distinct eqb nan sym row u F) as [L D]. split; [lia |]. split.
    + intros E. constructor; [apply D; lia | apply IH; lia].
    + intros E. inversion E; subst. apply D in H1. apply IH in H2. lia.
Qed.
