(** Build, and the functions that read a slice. *)
From Coq Require Import NArith ZArith List Bool Arith Lia Permutation.
From Verif Require Import ObjectIdModel SchemaModel ItemModel SliceModel SliceSpec SliceProofs.
Import ListNotations.
Local Open Scope nat_scope.

(** ** Reading a well-formed slice *)
Lemma item_at_present : forall s t a i, slice_wf s -> nth_error (s_values s) t = Some a ->
  i < s_size s -> d_present a i = true -> item_at s i = nth i (d_values a) None.
Proof.
  intros s t a i W N Hi P. unfold item_at.
  destruct (find (fun a => d_present a i) (s_values s)) as [a'|] eqn:F.
  - apply find_some in F. destruct F as [F1 F2]. apply In_nth_error in F1. destruct F1 as [t' F1].
    assert (t = t') by (eapply (sw_disjoint s W); eauto). congruence.
  - apply nth_error_In in N. pose proof (find_none _ _ F a N) as X. cbn in X. congruence.
Qed.
Lemma item_at_absent : forall s i,
  (forall t a, nth_error (s_values s) t = Some a -> d_present a i = false) -> item_at s i = None.
Proof.
  intros s i H. unfold item_at. destruct (find (fun a => d_present a i) (s_values s)) as [a|] eqn:F; auto.
  apply find_some in F. destruct F as [F1 F2]. apply In_nth_error in F1. destruct F1 as [t F1].
  rewrite (H t a F1) in F2. discriminate.
Qed.
Lemma wf_arr : forall s t a, slice_wf s -> nth_error (s_values s) t = Some a -> arr_wf (s_size s) a.
Proof.
  intros s t a W N. pose proof (sw_arrays s W) as F. rewrite Forall_forall in F. apply F.
  eapply nth_error_In; eauto.
Qed.
Lemma item_at_cases : forall s i, slice_wf s -> i < s_size s ->
  (exists t a v, nth_error (s_values s) t = Some a /\ d_present a i = true /\
     nth i (d_values a) None = Some v /\ kind_of v = d_kind a /\ item_at s i = Some v) \/
  ((forall t a, nth_error (s_values s) t = Some a -> d_present a i = false) /\ item_at s i = None).
Proof.
  intros s i W Hi. destruct (existsb (fun a => d_present a i) (s_values s)) eqn:E.
  - left. apply existsb_exists in E. destruct E as (a & A1 & A2). apply In_nth_error in A1.
    destruct A1 as [t A1]. destruct (aw_values _ _ (wf_arr s t a W A1) i Hi A2) as (v & V1 & V2).
    exists t, a, v. do 4 (split; auto). rewrite <- V1. eapply item_at_present; eauto.
  - right. assert (H : forall t a, nth_error (s_values s) t = Some a -> d_present a i = false).
    { intros t a N. destruct (d_present a i) eqn:P; auto. rewrite <- E. symmetry. apply existsb_exists.
      exists a. split; auto. eapply nth_error_In; eauto. }
    split; auto. now apply item_at_absent.
Qed.

Lemma slice_get_wf : forall s i, slice_wf s -> i < s_size s -> slice_get s i = Some (item_at s i).
Proof.
  intros s i W Hi. unfold slice_get.
  destruct (item_at_cases s i W Hi) as [(t & a & v & N & P & V & K & ->)|[AB ->]].
  - destruct (s_values s) as [|a1 [|a2 r]] eqn:EV.
    + destruct t; discriminate.
    + destruct t as [|[|t]]; try discriminate. inversion N; subst a1. rewrite P, V. reflexivity.
    + assert (TN : s_tidx s <> []) by (apply (sw_mixed s W); rewrite EV; cbn; lia).
      assert (TI : nth i (s_tidx s) TUnset = TIdx t).
      { apply (sw_tidx s W TN i t Hi). exists a. rewrite EV. auto. }
      rewrite TI, N. cbn [obind]. rewrite V. reflexivity.
  - destruct (s_values s) as [|a1 [|a2 r]] eqn:EV; auto.
    + rewrite (AB 0 a1 eq_refl). reflexivity.
    + assert (TN : s_tidx s <> []) by (apply (sw_mixed s W); rewrite EV; cbn; lia).
      destruct (nth i (s_tidx s) TUnset) as [| |t] eqn:ET; auto.
      apply (sw_tidx s W TN i t Hi) in ET. destruct ET as (a & N & P). rewrite EV in N.
      rewrite (AB t a N) in P. discriminate.
Qed.
Lemma slice_present_wf : forall s i, slice_wf s -> i < s_size s ->
  slice_present s i = match item_at s i with Some _ => true | None => false end.
Proof.
  intros s i W Hi. unfold slice_present.
  destruct (s_tidx s) as [|t0 ts] eqn:ET.
  - destruct (s_values s) as [|a1 [|a2 r]] eqn:EV.
    + now rewrite item_at_absent by (intros t a N; rewrite EV in N; destruct t; discriminate).
    + destruct (item_at_cases s i W Hi) as [(t & a & v & N & P & V & K & ->)|[AB ->]].
      * rewrite EV in N. destruct t as [|[|t]]; try discriminate. inversion N; subst. auto.
      * apply (AB 0). now rewrite EV.
    + exfalso. apply (sw_mixed s W); auto. rewrite EV. cbn. lia.
  - assert (TN : s_tidx s <> []) by congruence. rewrite <- ET.
    destruct (item_at_cases s i W Hi) as [(t & a & v & N & P & V & K & ->)|[AB ->]].
    + assert (TI : nth i (s_tidx s) TUnset = TIdx t) by (apply (sw_tidx s W TN i t Hi); eauto).
      now rewrite TI.
    + destruct (nth i (s_tidx s) TUnset) as [| |t] eqn:E; auto.
      apply (sw_tidx s W TN i t Hi) in E. destruct E as (a & N & P). rewrite (AB t a N) in P. discriminate.
Qed.

Lemma nth_fold_upd : forall (f : nat -> option value) (p : nat -> bool) l base j,
  (forall i, In i l -> i < length base) ->
  let r := fold_left (fun items i => if p i then upd i (f i) items else items) l base in
  length r = length base /\
  nth j r None = if existsb (Nat.eqb j) l && p j then f j else nth j base None.
Proof.
  intros f p l; induction l as [|i l IH]; intros base j H; cbn; auto.
  assert (L : length (if p i then upd i (f i) base else base) = length base)
    by (destruct (p i); rewrite ?upd_length; auto).
  destruct (IH (if p i then upd i (f i) base else base) j) as [I1 I2].
  { intros i' Hi'. rewrite L. apply H. now right. }
  split; [congruence|]. rewrite I2.
  destruct (j =? i) eqn:EJ; cbn.
  - apply Nat.eqb_eq in EJ. subst j. destruct (existsb (Nat.eqb i) l && p i) eqn:E.
    + apply andb_true_iff in E. destruct E as [_ ->]. reflexivity.
    + destruct (p i); auto. rewrite nth_upd by (apply H; now left). now rewrite Nat.eqb_refl.
  - destruct (existsb (Nat.eqb j) l && p j); auto. destruct (p i); auto.
    rewrite nth_upd by (apply H; now left). now rewrite EJ.
Qed.
Lemma existsb_below : forall n j, j < n -> existsb (Nat.eqb j) (seq 0 n) = true.
Proof.
  intros n j H. apply existsb_exists. exists j. split; [apply in_seq; lia|apply Nat.eqb_refl].
Qed.

Lemma as_items_wf : forall s, slice_wf s -> as_items s = items s.
Proof.
  intros s W. unfold as_items, items.
  assert (L : forall vs base, Forall (arr_wf (s_size s)) vs -> length base = s_size s ->
    let r := fold_left (fun items a => fold_left (fun items i =>
        if d_present a i then upd i (nth i (d_values a) None) items else items) (seq 0 (d_size a)) items) vs base in
    length r = s_size s /\
    forall j, j < s_size s ->
      nth j r None = match find (fun a => d_present a j) (rev vs) with
                     | Some a => nth j (d_values a) None
                     | None => nth j base None
                     end).
  { induction vs as [|a vs IH]; intros base F LB; cbn [fold_left rev]; auto.
    inversion F as [|? ? F1 F2]; subst.
    destruct (nth_fold_upd (fun i => nth i (d_values a) None) (d_present a) (seq 0 (d_size a)) base 0) as [N1 _].
    { intros i Hi. apply in_seq in Hi. rewrite (aw_size _ _ F1) in Hi. lia. }
    destruct (IH _ F2 (eq_trans N1 LB)) as [I1 I2]. split; auto.
    intros j Hj. rewrite I2 by auto.
    destruct (nth_fold_upd (fun i => nth i (d_values a) None) (d_present a) (seq 0 (d_size a)) base j) as [_ N2].
    { intros i Hi. apply in_seq in Hi. rewrite (aw_size _ _ F1) in Hi. lia. }
    rewrite N2. rewrite (aw_size _ _ F1), existsb_below by auto. cbn [andb].
    clear. induction (rev vs) as [|x l IHl]; cbn.
    - destruct (d_present a j); auto.
    - destruct (d_present x j); auto. }
  destruct (L (s_values s) (repeat None (s_size s)) (sw_arrays s W)) as [L1 L2].
  { apply repeat_length. }
  apply nth_ext with (d := None) (d' := None).
  - now rewrite L1, map_length, seq_length.
  - intros j Hj. rewrite L1 in Hj. rewrite L2 by auto.
    rewrite (nth_indep (map (item_at s) (seq 0 (s_size s))) None (item_at s 0)) by now rewrite map_length, seq_length.
    rewrite map_nth, seq_nth by auto. cbn.
    destruct (find (fun a => d_present a j) (rev (s_values s))) as [a|] eqn:F.
    + apply find_some in F. destruct F as [F1 F2]. apply in_rev in F1. apply In_nth_error in F1.
      destruct F1 as [t F1]. symmetry. eapply item_at_present; eauto.
    + rewrite nth_repeat. symmetry. apply item_at_absent. intros t a N.
      apply nth_error_In in N. apply in_rev in N. exact (find_none _ _ F a N).
Qed.

Lemma filter_or : forall {A} (p q : A -> bool) l, (forall x, In x l -> p x = true -> q x = true -> False) ->
  length (filter (fun x => p x || q x) l) = length (filter p l) + length (filter q l).
Proof.
  intros A p q l H. induction l as [|x l IH]; cbn; auto.
  specialize (H x) as Hx. destruct (p x) eqn:P, (q x) eqn:Q; cbn; rewrite ?IH; try lia;
    try (intros; eapply H; eauto; now right).
  exfalso. apply Hx; auto. now left.
Qed.
Lemma slice_count_wf : forall s, slice_wf s -> slice_count s = length (filter present_item (items s)).
Proof.
  intros s W. unfold slice_count, items.
  assert (L : forall vs, Forall (arr_wf (s_size s)) vs ->
     (forall i t1 t2 a1 a2, i < s_size s -> nth_error vs t1 = Some a1 -> nth_error vs t2 = Some a2 ->
        d_present a1 i = true -> d_present a2 i = true -> t1 = t2) ->
     list_sum (map present_count vs) =
     length (filter (fun i => existsb (fun a => d_present a i) vs) (seq 0 (s_size s)))).
  { induction vs as [|a vs IH]; intros F D.
    - cbn [map list_sum existsb fold_right]. induction (seq 0 (s_size s)); auto.
    - inversion F as [|? ? F1 F2]; subst. cbn [map list_sum fold_right existsb].
      change (fold_right Nat.add 0 (map present_count vs)) with (list_sum (map present_count vs)).
      rewrite IH; auto.
      + rewrite filter_or; [unfold present_count; now rewrite (aw_size _ _ F1)|].
        intros i Hi P Q. apply in_seq in Hi. apply existsb_exists in Q. destruct Q as (a2 & Q1 & Q2).
        apply In_nth_error in Q1. destruct Q1 as [t Q1].
        assert (0 = S t) by (eapply (D i 0 (S t) a a2); [lia|reflexivity|exact Q1|exact P|exact Q2]). discriminate.
      + intros i t1 t2 a1 a2 Hi N1 N2 P1 P2. assert (S t1 = S t2) by (eapply (D i (S t1) (S t2)); eauto). lia. }
  rewrite L; [|apply W|apply W].
  rewrite <- (map_length (item_at s) (filter _ _)).
  assert (Q : forall l, (forall i, In i l -> i < s_size s) ->
    map (item_at s) (filter (fun i => existsb (fun a => d_present a i) (s_values s)) l) =
    filter present_item (map (item_at s) l)).
  { induction l as [|i l IHl]; intros H; cbn; auto.
    assert (X : existsb (fun a => d_present a i) (s_values s) = present_item (item_at s i)).
    { destruct (item_at_cases s i W (H i (or_introl eq_refl))) as [(t & a & v & N & P & V & K & ->)|[AB ->]].
      - cbn. apply existsb_exists. exists a. split; auto. eapply nth_error_In; eauto.
      - cbn. destruct (existsb (fun a => d_present a i) (s_values s)) eqn:E; auto.
        apply existsb_exists in E. destruct E as (a & A1 & A2). apply In_nth_error in A1.
        destruct A1 as [t A1]. rewrite (AB t a A1) in A2. discriminate. }
    rewrite <- X. destruct (existsb (fun a => d_present a i) (s_values s)); cbn; rewrite IHl; auto;
      intros; apply H; now right. }
  rewrite Q; auto. intros i Hi. apply in_seq in Hi. lia.
Qed.

(** ** Keeping some elements of a list *)
Section Keep.
Variable u : nat -> bool.
Fixpoint keep_from {A} (o : nat) (l : list A) : list A :=
  match l with
  | [] => []
  | x :: r => if u o then x :: keep_from (S o) r else keep_from (S o) r
  end.
Definition rank (j : nat) : nat := length (filter u (seq 0 j)).
Lemma keep_app {A} : forall (l1 l2 : list A) o,
  keep_from o (l1 ++ l2) = keep_from o l1 ++ keep_from (o + length l1) l2.
Proof.
  induction l1 as [|x l1 IH]; intros l2 o; cbn.
  - now rewrite Nat.add_0_r.
  - rewrite IH, Nat.add_succ_comm. destruct (u o); reflexivity.
Qed.
Lemma keep_nth {A} : forall (l : list A) o j x, nth_error l j = Some x -> u (o + j) = true ->
  nth_error (keep_from o l) (length (filter u (seq o j))) = Some x.
Proof.
  induction l as [|y l IH]; intros o [|j] x N U; cbn in *; try discriminate.
  - rewrite Nat.add_0_r in U. rewrite U. exact N.
  - destruct (u o); cbn; apply IH; auto; now rewrite Nat.add_succ_comm.
Qed.
Lemma keep_inv {A} : forall (l : list A) o t x, nth_error (keep_from o l) t = Some x ->
  exists j, u (o + j) = true /\ nth_error l j = Some x /\ t = length (filter u (seq o j)).
Proof.
  induction l as [|y l IH]; intros o t x N; cbn in *.
  - destruct t; discriminate.
  - destruct (u o) eqn:U.
    + destruct t as [|t]; cbn in N.
      * exists 0. rewrite Nat.add_0_r. auto.
      * destruct (IH (S o) t x N) as (j & J1 & J2 & J3). exists (S j).
        rewrite Nat.add_succ_r. split; auto. split; auto. cbn. rewrite U. cbn. auto.
    + destruct (IH (S o) t x N) as (j & J1 & J2 & J3). exists (S j).
      rewrite Nat.add_succ_r. split; auto. split; auto. cbn. now rewrite U.
Qed.
Lemma keep_map {A B} : forall (f : A -> B) l o, map f (keep_from o l) = keep_from o (map f l).
Proof. induction l as [|x l IH]; intros o; cbn; auto. destruct (u o); cbn; now rewrite IH. Qed.
Lemma keep_in {A} : forall (l : list A) o x, In x (keep_from o l) -> In x l.
Proof.
  induction l as [|y l IH]; intros o x H; cbn in *; auto. destruct (u o); cbn in *; [destruct H|]; eauto.
Qed.
Lemma keep_nodup {A} : forall (l : list A) o, NoDup l -> NoDup (keep_from o l).
Proof.
  induction l as [|y l IH]; intros o N; cbn; auto. inversion N; subst.
  destruct (u o); auto. constructor; auto. intros X. apply keep_in in X. auto.
Qed.
Lemma keep_ext {A} : forall (l1 l2 : list A) o, length l1 = length l2 ->
  (forall j, j < length l2 -> u (o + j) = true -> nth_error l1 j = nth_error l2 j) ->
  keep_from o l1 = keep_from o l2.
Proof.
  induction l1 as [|x l1 IH]; intros [|y l2] o L H; try discriminate; auto. cbn.
  assert (IHn : keep_from (S o) l1 = keep_from (S o) l2).
  { apply IH; [cbn in L; lia|]. intros j Hj U. apply (H (S j)); [cbn; lia|].
    rewrite <- Nat.add_succ_comm. exact U. }
  rewrite IHn. destruct (u o) eqn:Uo; auto. f_equal.
  specialize (H 0 ltac:(cbn; lia)). rewrite Nat.add_0_r in H. specialize (H Uo). cbn in H. congruence.
Qed.
Lemma rank_S : forall j, rank (S j) = if u j then S (rank j) else rank j.
Proof.
  intros j. unfold rank. rewrite seq_S, filter_app, app_length. cbn. destruct (u j); cbn; lia.
Qed.
Lemma rank_mono : forall i j, i <= j -> rank i <= rank j.
Proof.
  intros i j H. induction H; auto. rewrite rank_S. destruct (u m); lia.
Qed.
Lemma rank_le : forall j, rank j <= j.
Proof. induction j; auto. rewrite rank_S. destruct (u j); lia. Qed.
Lemma rank_inj : forall i j, u i = true -> u j = true -> rank i = rank j -> i = j.
Proof.
  intros i j Ui Uj E. destruct (Nat.lt_trichotomy i j) as [H|[H|H]]; auto.
  - pose proof (rank_mono (S i) j H) as M. rewrite rank_S, Ui in M. lia.
  - pose proof (rank_mono (S j) i H) as M. rewrite rank_S, Uj in M. lia.
Qed.
Lemma keep_length {A} : forall (l : list A), length (keep_from 0 l) = rank (length l).
Proof.
  induction l as [|x l IH] using rev_ind; cbn; auto.
  rewrite keep_app, !app_length, IH. cbn. rewrite Nat.add_1_r, rank_S. destruct (u (length l)); cbn; lia.
Qed.
Lemma keep_all {A} : forall (l : list A) o, (forall j, j < length l -> u (o + j) = true) -> keep_from o l = l.
Proof.
  induction l as [|x l IH]; intros o H; cbn; auto.
  rewrite <- (Nat.add_0_r o) at 1. rewrite H by (cbn; lia). f_equal. apply IH.
  intros j Hj. rewrite Nat.add_succ_comm. apply H. cbn; lia.
Qed.
Lemma rank_all : forall m, (forall j, j < m -> u j = true) -> rank m = m.
Proof.
  induction m as [|m IH]; intros H; auto. rewrite rank_S, H by lia. rewrite IH; auto.
Qed.

(** RemoveEmptyTypes *)
Lemma new_indices_keep : forall rm count, (forall j, j < count -> u j = negb (existsb (Nat.eqb j) rm)) ->
  new_indices count rm = map (fun j => if u j then Some (rank j) else None) (seq 0 count).
Proof.
  intros rm count HU. unfold new_indices.
  assert (L : forall c, c <= count -> fold_left (fun '(next, res) idx =>
         if existsb (Nat.eqb idx) rm then (next, res ++ [None]) else (S next, res ++ [Some next]))
       (seq 0 c) (0, []) = (rank c, map (fun j => if u j then Some (rank j) else None) (seq 0 c))).
  { induction c as [|c IH]; intros Hc; auto.
    rewrite rank_S, seq_S, fold_left_app, IH, map_app by lia. cbn [fold_left map plus]. rewrite (HU c) by lia.
    destruct (existsb (Nat.eqb c) rm); reflexivity. }
  now rewrite L by lia.
Qed.
Lemma firstn_snoc {A} : forall m (l : list A) x, nth_error l m = Some x -> firstn (S m) l = firstn m l ++ [x].
Proof.
  induction m as [|m IH]; intros [|y l] x H; cbn in *; try discriminate.
  - congruence.
  - now rewrite <- (IH l x H).
Qed.
Lemma firstn_upd {A} : forall r (l : list A) x, r < length l -> firstn (S r) (upd r x l) = firstn r l ++ [x].
Proof.
  induction r as [|r IH]; intros [|y l] x H; cbn in *; try lia; auto.
  rewrite <- IH by lia. reflexivity.
Qed.
Lemma compact_keep {A} : forall (l : list A) ni,
  ni = map (fun j => if u j then Some (rank j) else None) (seq 0 (length l)) ->
  firstn (rank (length l)) (compact ni l) = keep_from 0 l.
Proof.
  intros l ni EN. unfold compact.
  assert (length ni = length l) as -> by (now rewrite EN, map_length, seq_length).
  assert (L : forall m, m <= length l ->
    let r := fold_left (fun l i => match nth_error ni i, nth_error l i with
                        | Some (Some n), Some x => upd n x l
                        | _, _ => l
                        end) (seq 0 m) l in
    length r = length l /\ firstn (rank m) r = keep_from 0 (firstn m l) /\
    (forall j, m <= j -> nth_error r j = nth_error l j)).
  { induction m as [|m IH]; intros Hm.
    - cbn. auto.
    - destruct (IH ltac:(lia)) as (I1 & I2 & I3). cbv zeta in *. rewrite seq_S, fold_left_app.
      cbn [fold_left plus].
      set (r := fold_left (fun l i => match nth_error ni i, nth_error l i with
                        | Some (Some n), Some x => upd n x l
                        | _, _ => l
                        end) (seq 0 m) l) in *.
      destruct (nth_error l m) as [x|] eqn:EX; [|apply nth_error_None in EX; lia].
      assert (NI : nth_error ni m = Some (if u m then Some (rank m) else None)).
      { rewrite EN. rewrite nth_error_map.
        assert (nth_error (seq 0 (length l)) m = Some m) as ->; auto.
        rewrite nth_error_nth' with (d := 0) by (rewrite seq_length; lia). now rewrite seq_nth by lia. }
      rewrite NI, I3 by lia. rewrite EX, rank_S, (firstn_snoc m l x EX), keep_app.
      rewrite firstn_length_le by lia. cbn.
      pose proof (rank_le m). destruct (u m).
      + split; [now rewrite upd_length|]. split.
        * rewrite firstn_upd by lia. now rewrite I2.
        * intros j Hj. rewrite nth_error_upd by lia. destruct (j =? rank m) eqn:E.
          -- apply Nat.eqb_eq in E. lia.
          -- apply I3. lia.
      + rewrite app_nil_r. split; auto. split; auto. intros j Hj. apply I3. lia. }
  destruct (L (length l) ltac:(lia)) as (_ & L2 & _). rewrite L2. now rewrite firstn_all.
Qed.
Lemma new_count_rank : forall count,
  length (filter (fun o : option nat => match o with Some _ => true | None => false end)
     (map (fun j => if u j then Some (rank j) else None) (seq 0 count))) = rank count.
Proof.
  induction count as [|c IH]; auto.
  rewrite seq_S, map_app, filter_app, app_length, IH, rank_S. cbn. destruct (u c); cbn; lia.
Qed.
End Keep.

(** ** Build *)
Definition idx_of (e : kind * storage) : nat := match snd e with STyped _ ti _ => ti | SMono => 0 end.
Definition arr_of (b : bldr) (e : kind * storage) : darr :=
  match snd e with STyped k ti d => mkArr k (data_of d) (to_bitmap b ti) | SMono => default_array end.
Definition used (b : bldr) (t : nat) : bool :=
  negb ((b_size b =? 0) || negb (length (to_bitmap b t) =? 0) && forallb negb (to_bitmap b t)).

Lemma tidx_eqb_eq : forall a b, tidx_eqb a b = true <-> a = b.
Proof.
  intros [| |x] [| |y]; cbn; try (split; congruence). rewrite Nat.eqb_eq. split; congruence.
Qed.
Lemma to_bitmap_nth : forall b ti i, i < b_size b ->
  nth i (to_bitmap b ti) false = tidx_eqb (nth i (b_tidx b) TUnset) (TIdx ti).
Proof.
  intros b ti i Hi. unfold to_bitmap. unfold b_size in Hi.
  rewrite (nth_indep _ false (tidx_eqb TUnset (TIdx ti))) by now rewrite map_length.
  exact (map_nth (fun t => tidx_eqb t (TIdx ti)) (b_tidx b) TUnset i).
Qed.
Lemma to_bitmap_bit : forall b ti i, i < b_size b ->
  bit (to_bitmap b ti) i = tidx_eqb (nth i (b_tidx b) TUnset) (TIdx ti).
Proof.
  intros b ti i Hi. rewrite <- to_bitmap_nth by auto. unfold bit. destruct (to_bitmap b ti) eqn:E; auto.
  unfold to_bitmap in E. apply map_eq_nil in E. unfold b_size in Hi. rewrite E in Hi. cbn in Hi. lia.
Qed.
Lemma used_spec : forall b t, used b t = true <-> exists i, i < b_size b /\ nth i (b_tidx b) TUnset = TIdx t.
Proof.
  intros b t. unfold used. rewrite negb_true_iff, orb_false_iff, Nat.eqb_neq.
  assert (LB : length (to_bitmap b t) = b_size b) by (unfold to_bitmap, b_size; now rewrite map_length).
  split.
  - intros [H1 H2]. rewrite LB in H2. apply Nat.eqb_neq in H1. rewrite H1 in H2. cbn [negb andb] in H2.
    destruct (existsb (fun x => x) (to_bitmap b t)) eqn:E.
    + apply existsb_exists in E. destruct E as (x & X1 & ->). apply In_nth with (d := false) in X1.
      destruct X1 as (i & I1 & I2). rewrite LB in I1. exists i. split; auto.
      rewrite to_bitmap_nth in I2 by auto. now apply tidx_eqb_eq.
    + exfalso. clear - E H2. induction (to_bitmap b t) as [|[|] l IH]; cbn in *; try discriminate; auto.
  - intros (i & I1 & I2). split; [lia|]. apply andb_false_iff. right.
    destruct (forallb negb (to_bitmap b t)) eqn:E; auto. rewrite forallb_forall in E.
    assert (X : In true (to_bitmap b t)).
    { rewrite <- (proj2 (tidx_eqb_eq _ _) I2), <- to_bitmap_nth by auto. apply nth_In. lia. }
    apply E in X. discriminate.
Qed.

Definition entry_ok (cnt : nat) (e : kind * storage) : Prop :=
  exists ti d, snd e = STyped (fst e) ti d /\ ti < cnt.
Lemma build_variant_entry : forall b cnt e, entry_ok cnt e ->
  build_variant b (snd e) = Some (used b (idx_of e), idx_of e, arr_of b e).
Proof.
  intros b cnt e (ti & d & E & _). unfold idx_of, arr_of, used. rewrite E. cbn.
  destruct d; reflexivity.
Qed.
Lemma collect_ok : forall b cnt l vals0 rm0 last0, Forall (entry_ok cnt) l -> NoDup (map idx_of l) ->
  length vals0 = cnt ->
  exists vals rm last,
    ofold (fun e '(vals, rm, last) =>
           obind (build_variant b (snd e)) (fun '(present, idx, arr) =>
           if present : bool
           then if idx <? length vals then Some (upd idx arr vals, rm, Some (fst e)) else None
           else Some (vals, rm ++ [idx], last))) l (vals0, rm0, last0) = Some (vals, rm, last) /\
    length vals = cnt /\
    (forall e, In e l -> used b (idx_of e) = true -> nth_error vals (idx_of e) = Some (arr_of b e)) /\
    (forall t, (forall e, In e l -> idx_of e <> t) -> nth_error vals t = nth_error vals0 t) /\
    (forall t, In t rm <-> In t rm0 \/ exists e, In e l /\ idx_of e = t /\ used b t = false) /\
    ((exists e, In e l /\ used b (idx_of e) = true /\ last = Some (fst e)) \/
     (last = last0 /\ forall e, In e l -> used b (idx_of e) = false)).
Proof.
  intros b cnt l. induction l as [|e l IH]; intros vals0 rm0 last0 F ND LV.
  - exists vals0, rm0, last0. split; [reflexivity|]. split; auto. split; [intros e []|]. split; auto.
    split; [|right; split; [auto|intros e []]]. intros t. split; auto. intros [H|(e & [] & _)]; auto.
  - inversion F as [|? ? F1 F2]; subst. inversion ND as [|? ? N1 N2]; subst.
    rewrite ofold_cons. rewrite (build_variant_entry b _ e F1). cbn [obind].
    pose proof F1 as (ti & d & Ee & Hti).
    assert (HI : idx_of e < length vals0) by (unfold idx_of; rewrite Ee; auto).
    assert (NE : forall e', In e' l -> idx_of e' <> idx_of e).
    { intros e' He' X. apply N1. rewrite <- X. now apply List.in_map. }
    destruct (used b (idx_of e)) eqn:U.
    + assert ((idx_of e <? length vals0) = true) as -> by now apply Nat.ltb_lt.
      cbn [obind].
      destruct (IH (upd (idx_of e) (arr_of b e) vals0) rm0 (Some (fst e)) F2 N2) as (vals & rm & last & R & R1 & R2 & R3 & R4 & R5).
      { now rewrite upd_length. }
      exists vals, rm, last. split; [exact R|]. split; auto. split; [|split; [|split]].
      * intros e' [<-|He'] U'; auto. rewrite R3 by (intros; now apply NE).
        rewrite nth_error_upd by auto. now rewrite Nat.eqb_refl.
      * intros t Ht. rewrite R3 by (intros; apply Ht; now right). rewrite nth_error_upd by auto.
        destruct (t =? idx_of e) eqn:Et; auto. apply Nat.eqb_eq in Et. exfalso.
        apply (Ht e); [now left|congruence].
      * intros t. rewrite R4. split; intros [H|(e' & He & E1 & E2)]; auto.
        -- right. exists e'. split; [now right|auto].
        -- right. destruct He as [<-|He]; [congruence|eauto].
      * left. destruct R5 as [(e' & E1 & E2 & E3)|[-> E2]].
        -- exists e'. split; [now right|auto].
        -- exists e. split; [now left|auto].
    + cbn [obind].
      destruct (IH vals0 (rm0 ++ [idx_of e]) last0 F2 N2 eq_refl) as (vals & rm & last & R & R1 & R2 & R3 & R4 & R5).
      exists vals, rm, last. split; [exact R|]. split; auto. split; [|split; [|split]].
      * intros e' [<-|He'] U'; auto. congruence.
      * intros t Ht. apply R3. intros; apply Ht; now right.
      * intros t. rewrite R4, in_app_iff. split.
        -- intros [[H|[<-|[]]]|(e' & He & E1 & E2)]; auto; right.
           ++ exists e. split; [now left|auto].
           ++ exists e'. split; [now right|auto].
        -- intros [H|(e' & [<-|He] & E1 & E2)]; auto.
           ++ left. right. now left.
           ++ right. eauto.
      * destruct R5 as [(e' & E1 & E2 & E3)|[-> E2]].
        -- left. exists e'. split; [now right|auto].
        -- right. split; auto. intros e' [<-|He]; auto.
Qed.

Lemma omap_map : forall {A B} (f : A -> option B) (g : A -> B) l, (forall x, In x l -> f x = Some (g x)) ->
  omap f l = Some (map g l).
Proof.
  intros A B f g l; induction l as [|x l IH]; intros H; cbn; auto.
  rewrite H by now left. cbn. rewrite IH; auto. intros; apply H; now right.
Qed.

Section Built.
Variables (n : nat) (b : bldr) (c : cells).
Hypothesis C : core n None b c.

Lemma none_neq : forall k : kind, None <> Some k.
Proof. discriminate. Qed.
Lemma b_size_n : b_size b = n.
Proof. exact (co_size _ _ _ _ C). Qed.
Lemma tidx_value : forall i t, i < n -> nth i (b_tidx b) TUnset = TIdx t ->
  exists v d, c i = Some (Some v) /\ stor b (kind_of v) = Some (STyped (kind_of v) t d) /\
    nth i (data_of d) None = Some v /\ nth_error (b_types b) t = Some (kind_of v) /\ length (data_of d) = n.
Proof.
  intros i t Hi E. pose proof (co_cells _ _ _ _ C i Hi) as H. destruct (c i) as [[v|]|]; try congruence.
  destruct H as (ti & d & _ & T & S' & V). assert (ti = t) by congruence. subst ti.
  exists v, d. split; auto. split; auto. split; auto.
  destruct (co_stor _ _ _ _ C _ _ (none_neq _) S') as (ti' & d' & E1 & E2 & E3).
  inversion E1; subst. auto.
Qed.
Lemma value_tidx : forall i v, i < n -> c i = Some (Some v) -> exists t d,
  nth i (b_tidx b) TUnset = TIdx t /\ stor b (kind_of v) = Some (STyped (kind_of v) t d) /\
  nth i (data_of d) None = Some v.
Proof.
  intros i v Hi E. pose proof (co_cells _ _ _ _ C i Hi) as H. rewrite E in H.
  destruct H as (ti & d & _ & T & S' & V). eauto.
Qed.

Definition ren (u : nat -> bool) (t : tidx) : tidx := match t with TIdx j => TIdx (rank u j) | _ => t end.

(** What is to be shown of the result *)
Record built (s : slice) : Prop := {
  bu_wf : slice_wf s;
  bu_size : s_size s = n;
  bu_items : forall i, i < n -> item_at s i = item_of (c i);
  bu_unset : forall i, i < n -> (nth i (s_tidx s) TUnset = TUnset <-> c i = None);
  bu_removed : forall i, i < n -> (nth i (s_tidx s) TUnset = TRemoved <-> c i = Some None);
  bu_allocs : s_values s <> [] -> s_allocs s = b_allocs b;
  bu_empty_allocs : s_allocs s = b_allocs b \/ s_allocs s = no_allocs
}.

Lemma unset_iff : forall i, i < n -> (nth i (b_tidx b) TUnset = TUnset <-> c i = None).
Proof.
  intros i Hi. pose proof (co_cells _ _ _ _ C i Hi) as H. destruct (c i) as [[v|]|].
  - destruct H as (ti & d & _ & T & _). split; congruence.
  - split; congruence.
  - tauto.
Qed.
Lemma removed_iff : forall i, i < n -> (nth i (b_tidx b) TUnset = TRemoved <-> c i = Some None).
Proof.
  intros i Hi. pose proof (co_cells _ _ _ _ C i Hi) as H. destruct (c i) as [[v|]|].
  - destruct H as (ti & d & _ & T & _). split; congruence.
  - tauto.
  - split; congruence.
Qed.

Lemma built_empty : (forall i v, i < n -> c i <> Some (Some v)) ->
  built (empty_with_types (b_tidx b) (b_types b)).
Proof.
  intros NV. unfold empty_with_types. pose proof b_size_n as BS. unfold b_size in BS. rewrite BS.
  destruct (n =? 0) eqn:E0.
  - apply Nat.eqb_eq in E0. constructor; try (intros; lia); try (cbn; congruence); auto.
    constructor; cbn; auto; try congruence; try lia; constructor.
  - apply Nat.eqb_neq in E0. constructor.
    + constructor; cbn.
      * constructor.
      * constructor.
      * intros i t1 t2 a1 a2 Hi N. destruct t1; discriminate.
      * reflexivity.
      * auto.
      * intros _ i t Hi. split.
        -- intros T. apply tidx_value in T; auto. destruct T as (v & d & T & _). exfalso. eapply NV; eauto.
        -- intros (a & N & _). destruct t; discriminate.
      * congruence.
      * lia.
    + reflexivity.
    + intros i Hi. rewrite item_at_absent by (intros t a N; destruct t; discriminate).
      destruct (c i) as [[v|]|] eqn:E; auto. exfalso. eapply NV; eauto.
    + exact unset_iff.
    + exact removed_iff.
    + cbn. congruence.
    + right. reflexivity.
Qed.

Lemma built_arrays : forall vals u tidx' dt,
  (forall t, u t = used b t) ->
  length vals = length (b_types b) ->
  (forall t, u t = true -> t < length (b_types b) -> exists k d,
     nth_error (b_types b) t = Some k /\ stor b k = Some (STyped k t d) /\
     nth_error vals t = Some (mkArr k (data_of d) (to_bitmap b t))) ->
  length tidx' = n ->
  (forall i, i < n -> nth i tidx' TUnset = ren u (nth i (b_tidx b) TUnset)) ->
  dt = match keep_from u 0 vals with [a] => Some (d_kind a) | _ => None end ->
  built (mkSlice n dt (b_allocs b) (keep_from u 0 vals) tidx' (keep_from u 0 (b_types b))).
Proof.
  intros vals u tidx' dt HU LV HV LT HT HD.
  (* the arrays of the result *)
  assert (FWD : forall j, u j = true -> j < length (b_types b) -> exists k d,
     nth_error (b_types b) j = Some k /\ stor b k = Some (STyped k j d) /\
     nth_error (keep_from u 0 vals) (rank u j) = Some (mkArr k (data_of d) (to_bitmap b j))).
  { intros j Uj Hj. destruct (HV j Uj Hj) as (k & d & K1 & K2 & K3). exists k, d. split; auto. split; auto.
    apply (keep_nth u vals 0 j _ K3). exact Uj. }
  assert (BWD : forall t a, nth_error (keep_from u 0 vals) t = Some a -> exists j k d,
     u j = true /\ t = rank u j /\ nth_error (b_types b) j = Some k /\ stor b k = Some (STyped k j d) /\
     a = mkArr k (data_of d) (to_bitmap b j)).
  { intros t a N. apply keep_inv in N. destruct N as (j & J1 & J2 & J3). cbn in J1.
    assert (Hj : j < length (b_types b)) by (rewrite <- LV; apply nth_error_Some; congruence).
    destruct (HV j J1 Hj) as (k & d & K1 & K2 & K3). exists j, k, d. split; auto. split; auto.
    split; auto. split; auto. congruence. }
  assert (PR : forall k d j i, i < n -> d_present (mkArr k (data_of d) (to_bitmap b j)) i = true <->
     nth i (b_tidx b) TUnset = TIdx j).
  { intros k d j i Hi. unfold d_present; cbn. rewrite to_bitmap_bit by (rewrite b_size_n; auto).
    apply tidx_eqb_eq. }
  assert (US : forall i j, i < n -> nth i (b_tidx b) TUnset = TIdx j -> u j = true /\ j < length (b_types b)).
  { intros i j Hi E. split.
    - rewrite HU. apply used_spec. exists i. rewrite b_size_n. auto.
    - destruct (tidx_value i j Hi E) as (v & d & _ & _ & _ & T & _). apply nth_error_Some. congruence. }
  assert (W : slice_wf (mkSlice n dt (b_allocs b) (keep_from u 0 vals) tidx' (keep_from u 0 (b_types b)))).
  { constructor; cbn [s_values s_size s_dtype s_tidx s_types].
    - apply Forall_forall. intros a Ha. apply In_nth_error in Ha. destruct Ha as [t Ha].
      destruct (BWD t a Ha) as (j & k & d & J1 & -> & J2 & J3 & ->).
      destruct (co_stor _ _ _ _ C _ _ (none_neq _) J3) as (ti' & d' & E1 & E2 & E3).
      inversion E1; subst ti' d'. constructor; cbn.
      + exact E3.
      + unfold bitmap_ok. right. unfold to_bitmap. rewrite map_length. exact b_size_n.
      + intros i Hi P. apply PR in P; auto. destruct (tidx_value i j Hi P) as (v & d2 & V1 & V2 & V3 & V4 & V5).
        assert (k = kind_of v) by congruence. subst k.
        exists v. split; auto. rewrite J3 in V2. inversion V2; subst. auto.
      + rewrite HU in J1. apply used_spec in J1. destruct J1 as (i & I1 & I2). rewrite b_size_n in I1.
        exists i. split; auto. now apply PR.
    - rewrite keep_map.
      rewrite (keep_ext u _ (b_types b)).
      + apply keep_nodup. exact (co_types _ _ _ _ C).
      + rewrite map_length. exact LV.
      + intros j Hj U. cbn in U. destruct (HV j U Hj) as (k & d & K1 & K2 & K3).
        rewrite nth_error_map, K3, K1. reflexivity.
    - intros i t1 t2 a1 a2 Hi N1 N2 P1 P2.
      destruct (BWD t1 a1 N1) as (j1 & k1 & d1 & J1 & -> & J2 & J3 & ->).
      destruct (BWD t2 a2 N2) as (j2 & k2 & d2 & M1 & -> & M2 & M3 & ->).
      apply PR in P1; auto. apply PR in P2; auto. congruence.
    - exact HD.
    - auto.
    - intros _ i t Hi. rewrite HT by auto. split.
      + intros E. destruct (nth i (b_tidx b) TUnset) as [| |j] eqn:T; try discriminate.
        cbn in E. assert (t = rank u j) by congruence. subst t.
        destruct (US i j Hi T) as [U L]. destruct (FWD j U L) as (k & d & K1 & K2 & K3).
        eexists; split; [exact K3|]. now apply PR.
      + intros (a & N & P). destruct (BWD t a N) as (j & k & d & J1 & -> & J2 & J3 & ->).
        apply PR in P; auto. rewrite P. reflexivity.
    - intros _ _. rewrite keep_map.
      symmetry. apply keep_ext.
      + rewrite map_length. exact LV.
      + intros j Hj U. cbn in U. destruct (HV j U Hj) as (k & d & K1 & K2 & K3).
        rewrite nth_error_map, K3, K1. reflexivity.
    - intros L. destruct tidx' as [|t0 r]; [|discriminate]. cbn in LT. exfalso.
      destruct (keep_from u 0 vals) as [|a ?] eqn:EK; [cbn in L; lia|].
      assert (N0 : nth_error (a :: l) 0 = Some a) by reflexivity.
      destruct (BWD 0 a N0) as (j & k & d & J1 & _). rewrite HU in J1. apply used_spec in J1.
      destruct J1 as (i & I1 & _). rewrite b_size_n, <- LT in I1. lia. }
  constructor; cbn [s_size s_tidx s_allocs].
  - exact W.
  - reflexivity.
  - intros i Hi. destruct (c i) as [[v|]|] eqn:E.
    + destruct (value_tidx i v Hi E) as (j & d & T & S' & V).
      destruct (US i j Hi T) as [U L]. destruct (FWD j U L) as (k & d2 & K1 & K2 & K3).
      destruct (tidx_value i j Hi T) as (v2 & d3 & E2 & S2 & V2 & T2 & _).
      assert (v2 = v) by congruence. subst v2. assert (k = kind_of v) by congruence. subst k.
      rewrite (item_at_present _ _ _ i W K3); auto.
      * rewrite S' in K2. inversion K2; subst. cbn. exact V.
      * now apply PR.
    + apply item_at_absent. intros t a N. cbn in N. destruct (BWD t a N) as (j & k & d & J1 & -> & J2 & J3 & ->).
      destruct (d_present _ i) eqn:P; auto. apply PR in P; auto. apply removed_iff in E; auto. congruence.
    + apply item_at_absent. intros t a N. cbn in N. destruct (BWD t a N) as (j & k & d & J1 & -> & J2 & J3 & ->).
      destruct (d_present _ i) eqn:P; auto. apply PR in P; auto. apply unset_iff in E; auto. congruence.
  - intros i Hi. rewrite HT, <- unset_iff by auto. destruct (nth i (b_tidx b) TUnset); cbn; split; congruence.
  - intros i Hi. rewrite HT, <- removed_iff by auto. destruct (nth i (b_tidx b) TUnset); cbn; split; congruence.
  - reflexivity.
  - left. reflexivity.
Qed.

Lemma build_ok : forall order, Permutation order (b_map b) ->
  exists s, build order b = Some s /\ built s.
Proof.
  intros order PM. unfold build. destruct (b_state b) eqn:ES.
  - eexists; split; [reflexivity|]. apply built_empty. intros i v Hi E.
    destruct (value_tidx i v Hi E) as (t & d & _ & S' & _). unfold stor in S'. rewrite ES in S'. discriminate.
  - pose proof (co_state _ _ _ _ C) as CS. rewrite ES in CS. destruct CS as (_ & _ & CT).
    destruct (b_type b) as [k|] eqn:ET; [|congruence]. clear CT.
    assert (SK : forall k', stor b k' = if kind_eq_dec k k' then Some (b_first b) else None)
      by (intros; unfold stor; now rewrite ES, ET).
    pose proof (SK k) as SKK. destruct (kind_eq_dec k k); [|congruence].
    destruct (co_stor _ _ _ _ C _ _ (none_neq _) SKK) as (ti & d & EF & NT & LD).
    assert (TY : b_types b = [k]).
    { assert (A : forall k', In k' (b_types b) -> k' = k).
      { intros k' H. apply (co_keys _ _ _ _ C k' (none_neq _)) in H. rewrite SK in H.
        destruct (kind_eq_dec k k'); congruence. }
      pose proof (co_types _ _ _ _ C) as ND. destruct (b_types b) as [|k1 [|k2 r]].
      - destruct ti; discriminate.
      - f_equal. apply A. now left.
      - inversion ND as [|? ? N1 N2]; subst. exfalso. apply N1. left.
        rewrite (A k1), (A k2); auto; cbn; auto. }
    assert (ti = 0) by (rewrite TY in NT; destruct ti as [|[|]]; auto; discriminate). subst ti.
    assert (EO : entry_ok 1 (k, b_first b)) by (exists 0, d; auto).
    pose proof (build_variant_entry b 1 _ EO) as BV. cbn [snd] in BV. rewrite BV. cbn [obind].
    assert (EI : idx_of (k, b_first b) = 0) by (unfold idx_of; cbn; now rewrite EF).
    assert (EA : arr_of b (k, b_first b) = mkArr k (data_of d) (to_bitmap b 0))
      by (unfold arr_of; cbn; now rewrite EF).
    rewrite EI, EA. destruct (used b 0) eqn:U.
    + rewrite TY. eexists; split; [reflexivity|].
      pose proof (built_arrays [mkArr k (data_of d) (to_bitmap b 0)] (used b) (b_tidx b) (Some k)) as BA.
      cbn [keep_from] in BA. rewrite U, TY in BA. cbn [keep_from] in BA. rewrite U in BA.
      rewrite b_size_n. apply BA; auto.
      * intros t Ut Ht. assert (t = 0) by (cbn in Ht; lia). subst t. exists k, d. split; auto. split; auto.
        rewrite SKK. now rewrite EF.
      * exact b_size_n.
      * intros i Hi. destruct (nth i (b_tidx b) TUnset) as [| |j] eqn:T; auto.
        destruct (tidx_value i j Hi T) as (v & d2 & _ & _ & _ & T2 & _). rewrite TY in T2.
        destruct j as [|[|]]; try discriminate. reflexivity.
    + eexists; split; [reflexivity|]. apply built_empty. intros i v Hi E.
      destruct (value_tidx i v Hi E) as (t & d2 & T & _ & _).
      destruct (tidx_value i t Hi T) as (v' & d' & _ & _ & _ & T2 & _). rewrite TY in T2.
      destruct t as [|[|]]; try discriminate.
      assert (used b 0 = true) by (apply used_spec; exists i; rewrite b_size_n; auto). congruence.
  - pose proof (co_state _ _ _ _ C) as CS. rewrite ES in CS.
    assert (SK : forall k, stor b k = m_find (b_map b) k) by (intros; unfold stor; now rewrite ES).
    assert (LM : length (b_map b) = length (b_types b)).
    { rewrite <- (map_length fst). apply Permutation_length. apply NoDup_Permutation; auto.
      - exact (co_types _ _ _ _ C).
      - intros k. rewrite (co_keys _ _ _ _ C k (none_neq _)), SK. symmetry. apply m_find_in. }
    assert (EN : forall e, In e order -> exists d, snd e = STyped (fst e) (idx_of e) d /\
       nth_error (b_types b) (idx_of e) = Some (fst e) /\ stor b (fst e) = Some (snd e)).
    { intros [k st] He. apply (Permutation_in _ PM) in He. apply (m_find_pair _ _ _ CS) in He.
      rewrite <- SK in He. destruct (co_stor _ _ _ _ C _ _ (none_neq _) He) as (ti & d & E1 & E2 & E3).
      exists d. subst st. unfold idx_of. cbn. auto. }
    assert (EX : forall t, t < length (b_types b) -> exists e, In e order /\ idx_of e = t).
    { intros t Ht. destruct (nth_error (b_types b) t) as [k|] eqn:N; [|apply nth_error_None in N; lia].
      pose proof (nth_error_In _ _ N) as HI. apply (co_keys _ _ _ _ C k (none_neq _)) in HI.
      destruct (stor b k) as [st|] eqn:S'; [|congruence].
      destruct (co_stor _ _ _ _ C _ _ (none_neq _) S') as (ti & d & E1 & E2 & E3).
      exists (k, st). split.
      - apply (Permutation_in _ (Permutation_sym PM)). apply (m_find_pair _ _ _ CS). now rewrite <- SK.
      - unfold idx_of. subst st. cbn. eapply (proj1 (NoDup_nth_error (b_types b)) (co_types _ _ _ _ C)).
        + apply nth_error_Some. congruence.
        + congruence. }
    assert (IN : forall e, In e order -> idx_of e < length (b_types b)).
    { intros e He. destruct (EN e He) as (d & _ & N & _). apply nth_error_Some. congruence. }
    unfold collect. rewrite LM.
    destruct (collect_ok b (length (b_types b)) order (repeat default_array (length (b_types b))) [] None)
      as (vals & rm & last & R & R1 & R2 & R3 & R4 & R5).
    { apply Forall_forall. intros e He. destruct (EN e He) as (d & E1 & _). exists (idx_of e), d. auto. }
    { assert (NK : NoDup (map fst order)).
      { eapply Permutation_NoDup; [|exact CS]. apply Permutation_map. now apply Permutation_sym. }
      clear - EN NK. induction order as [|e l IH]; cbn; [constructor|]. inversion NK; subst.
      constructor; [|apply IH; auto; intros; apply EN; now right].
      intros X. apply in_map_iff in X. destruct X as (e' & X1 & X2).
      destruct (EN e (or_introl eq_refl)) as (d1 & _ & A & _).
      destruct (EN e' (or_intror X2)) as (d2 & _ & B & _).
      apply H1. assert (fst e = fst e') as -> by congruence. now apply List.in_map. }
    { apply repeat_length. }
    cbv beta in R. rewrite R. cbn [obind]. clear R R3.
    set (u := used b).
    assert (RM : forall j, j < length (b_types b) -> u j = negb (existsb (Nat.eqb j) rm)).
    { intros j Hj. destruct (existsb (Nat.eqb j) rm) eqn:E; cbn.
      - apply existsb_exists in E. destruct E as (x & X1 & X2). apply Nat.eqb_eq in X2. subst x.
        apply R4 in X1. destruct X1 as [[]|(e & _ & _ & X)]. exact X.
      - destruct (u j) eqn:U; auto. destruct (EX j Hj) as (e & E1 & E2).
        assert (X : In j rm) by (apply R4; right; eauto).
        rewrite <- E. apply existsb_exists. exists j. split; auto. apply Nat.eqb_refl. }
    assert (UL : forall i j, i < n -> nth i (b_tidx b) TUnset = TIdx j -> u j = true /\ j < length (b_types b)).
    { intros i j Hi T. split.
      - apply used_spec. exists i. rewrite b_size_n. auto.
      - destruct (tidx_value i j Hi T) as (v & d & _ & _ & _ & T2 & _). apply nth_error_Some. congruence. }
    assert (RE : match rm with [] => Some (mkSlice (b_size b) None (b_allocs b) vals (b_tidx b) (b_types b))
                 | _ => remove_empty rm (mkSlice (b_size b) None (b_allocs b) vals (b_tidx b) (b_types b)) end =
       Some (mkSlice n None (b_allocs b) (keep_from u 0 vals) (map (ren u) (b_tidx b)) (keep_from u 0 (b_types b)))).
    { rewrite b_size_n. destruct rm as [|r0 rm'] eqn:ER.
      - assert (UA : forall j, j < length (b_types b) -> u j = true) by (intros; now rewrite RM).
        rewrite !keep_all; [| | | ..].
        + f_equal. f_equal. apply nth_ext with (d := TUnset) (d' := TUnset); [now rewrite map_length|].
          intros i Hi. change TUnset with (ren u TUnset) at 2. rewrite map_nth.
          destruct (nth i (b_tidx b) TUnset) as [| |j] eqn:T; auto. cbn. f_equal. symmetry. apply rank_all.
          intros j' Hj'. apply UA. pose proof b_size_n as BS. unfold b_size in BS.
          destruct (UL i j ltac:(lia) T). lia.
        + intros j Hj. apply UA. exact Hj.
        + intros j Hj. apply UA. cbn. lia.
      - unfold remove_empty. cbn [s_types s_tidx s_size s_dtype s_allocs s_values].
        rewrite (new_indices_keep u (r0 :: rm')) by exact RM. rewrite new_count_rank.
        rewrite (omap_map _ (ren u)).
        + cbn [obind]. rewrite <- R1 at 1. rewrite compact_keep by now rewrite R1.
          rewrite compact_keep by reflexivity. reflexivity.
        + intros t Ht. destruct t as [| |j]; auto. apply In_nth with (d := TUnset) in Ht.
          destruct Ht as (i & Hi & T). pose proof b_size_n as BS. unfold b_size in BS.
          destruct (UL i j ltac:(lia) T) as [U L]. cbn.
          assert ((j <=? length (b_types b)) = true) as -> by (apply Nat.leb_le; lia).
          rewrite nth_error_map.
          assert (nth_error (seq 0 (length (b_types b))) j = Some j) as ->
            by (rewrite nth_error_nth' with (d := 0) by (rewrite seq_length; lia); now rewrite seq_nth by lia).
          cbn. now rewrite U. }
    rewrite RE. cbn [obind s_values s_size s_allocs s_tidx s_types].
    assert (HV : forall t, u t = true -> t < length (b_types b) -> exists k d,
      nth_error (b_types b) t = Some k /\ stor b k = Some (STyped k t d) /\
      nth_error vals t = Some (mkArr k (data_of d) (to_bitmap b t))).
    { intros t Ut Ht. destruct (EX t Ht) as (e & He & Et). destruct (EN e He) as (d & E1 & E2 & E3).
      rewrite Et in *. exists (fst e), d. split; auto. split; [congruence|].
      rewrite <- Et. rewrite R2; auto; [|now rewrite Et]. unfold arr_of. rewrite E1. now rewrite Et. }
    assert (BA : forall dt, dt = match keep_from u 0 vals with [a] => Some (d_kind a) | _ => None end ->
      built (mkSlice n dt (b_allocs b) (keep_from u 0 vals) (map (ren u) (b_tidx b)) (keep_from u 0 (b_types b)))).
    { intros dt HD. apply built_arrays; auto.
      - rewrite map_length. exact b_size_n.
      - intros i Hi. change TUnset with (ren u TUnset) at 1. apply map_nth. }
    destruct (length (keep_from u 0 vals) =? 1) eqn:EL.
    + eexists; split; [reflexivity|]. apply BA. apply Nat.eqb_eq in EL.
      destruct (keep_from u 0 vals) as [|a [|a2 r]] eqn:EK; try discriminate.
      assert (N0 : nth_error (keep_from u 0 vals) 0 = Some a) by now rewrite EK.
      destruct (keep_inv u _ _ _ _ N0) as (j & J1 & J2 & J3). cbn in J1.
      assert (Hj : j < length (b_types b)) by (rewrite <- R1; apply nth_error_Some; congruence).
      destruct R5 as [(e & He & Ue & ->)|[_ NU]].
      * destruct (EN e He) as (d & E1 & E2 & E3).
        pose proof (keep_nth u vals 0 _ _ (R2 e He Ue) Ue) as KN. rewrite EK in KN.
        destruct (length (filter u (seq 0 (idx_of e)))) as [|[|]]; try discriminate.
        cbn in KN. inversion KN; subst a. unfold arr_of. rewrite E1. reflexivity.
      * destruct (EX j Hj) as (e & He & Ee). specialize (NU e He). rewrite Ee in NU. unfold u in J1. congruence.
    + eexists; split; [reflexivity|]. apply BA. apply Nat.eqb_neq in EL.
      destruct (keep_from u 0 vals) as [|a [|a2 r]]; auto. cbn in EL. lia.
Qed.
End Built.

(** ** Allocations *)
Lemma covers_insert : forall a x s, covers (al_insert x s) a <-> covers s a \/ same_alloc a x.
Proof.
  intros a x s. unfold covers, same_alloc, al_insert. destruct (is_small_alloc x) eqn:Ex; cbn.
  - destruct (is_small_alloc a) eqn:Ea; cbn; [tauto|]. split; auto. intros [H| ->]; [auto|congruence].
  - destruct (in_dec oid_dec x (al_big s)) as [Hi|Hi].
    + destruct (is_small_alloc a) eqn:Ea; split; auto; intros [H|H]; auto; congruence.
    + cbn. destruct (is_small_alloc a) eqn:Ea.
      * split; auto; intros [H|H]; auto; congruence.
      * rewrite in_app_iff. cbn. split; intros [H|H]; auto.
        -- destruct H as [H|[]]; auto.
Qed.
Lemma covers_union : forall a s t, allocs_ok t ->
  covers (al_union s t) a <-> covers s a \/ covers t a.
Proof.
  intros a s t HB. unfold al_union.
  assert (L : forall l s, (forall x, In x l -> is_small_alloc x = false) ->
     let u := fold_left (fun s a => al_insert a s) l s in
     al_small u = al_small s /\ (is_small_alloc a = false -> (In a (al_big u) <-> In a (al_big s) \/ In a l))).
  { induction l as [|x l IH]; intros s0 H; cbn; [tauto|].
    destruct (IH (al_insert x s0)) as [I1 I2]. { intros; apply H; now right. }
    cbv zeta in *. assert (Hx : is_small_alloc x = false) by (apply H; now left).
    split.
    - rewrite I1. unfold al_insert. rewrite Hx. destruct (in_dec oid_dec x (al_big s0)); reflexivity.
    - intros Ha. rewrite I2 by auto. pose proof (covers_insert a x s0) as CI. unfold covers, same_alloc in CI.
      rewrite Ha in CI. rewrite CI. intuition. }
  destruct (L (al_big t) s HB) as [L1 L2]. cbv zeta in *. unfold covers. cbn.
  destruct (is_small_alloc a) eqn:Ea.
  - rewrite L1. apply orb_true_iff.
  - now apply L2.
Qed.
Lemma allocs_gives : forall ops before a x,
  (forall s, In (OAllocs s) ops -> allocs_ok s) ->
  covers (allocs_after before ops a) x <->
  covers a x \/ exists mid op rest, ops = mid ++ op :: rest /\ gives (before ++ mid) op x.
Proof.
  induction ops as [|op ops IH]; intros before a x HB; cbn.
  - split; auto. intros [H|(mid & op & rest & E & _)]; auto. destruct mid; discriminate.
  - rewrite IH by (intros; eapply HB; eauto; now right).
    assert (ST : covers (allocs_step before op a) x <-> covers a x \/ gives before op x).
    { assert (IT : forall i y, covers (match content before i with None => al_item y a | Some _ => a end) x <->
         covers a x \/ content before i = None /\ exists o, y = Some (val KObjectId o) /\ same_alloc x (allocation_of o)).
      { intros i y. destruct (content before i).
        - split; auto. intros [H|[H _]]; [auto|discriminate].
        - unfold al_item. destruct y as [[[] v]|]; try (split; auto; intros [H|(_ & o & E & _)]; [auto|discriminate]).
          rewrite covers_insert. split; intros [H|H]; auto.
          + right. split; auto. exists v. auto.
          + right. destruct H as (_ & o & E & H). assert (EO : item_of (Some (Some (val KObjectId v))) = Some (val KObjectId o)) by exact E.
            cbn in EO. assert (v = o) as ->; auto.
            assert (Q : val KObjectId v = val KObjectId o) by congruence.
            apply (f_equal (fun z => match z with existT _ KObjectId q => Some q | _ => None end)) in Q.
            cbn in Q. congruence. }
      destruct op; cbn; try tauto; try apply IT.
      apply covers_union. intros y Hy. eapply HB; eauto. now left. }
    rewrite ST. split.
    + intros [[H|H]|(mid & op' & rest & E & H)]; auto; right.
      * exists [], op, ops. rewrite app_nil_r. auto.
      * exists (op :: mid), op', rest. cbn. rewrite E. split; auto. now rewrite <- app_assoc in H.
    + intros [H|(mid & op' & rest & E & H)]; auto. destruct mid as [|m mid].
      * cbn in E. inversion E; subst. rewrite app_nil_r in H. auto.
      * cbn in E. inversion E; subst. right. exists mid, op', rest. split; auto.
        rewrite <- app_assoc. exact H.
Qed.

(** ** IsFinalized *)
Lemma unsets_zero : forall l, unsets l = 0 <-> forall i, i < length l -> nth i l TUnset <> TUnset.
Proof.
  unfold unsets. induction l as [|t l IH]; cbn.
  - split; auto. intros _ i Hi. lia.
  - split.
    + intros H [|i] Hi; destruct t; cbn in *; try discriminate; try lia; try congruence;
        apply IH; auto; lia.
    + intros H. assert (H0 := H 0 ltac:(lia)). cbn in H0.
      destruct t; cbn; try congruence; apply IH; intros i Hi; apply (H (S i)); lia.
Qed.

(** ** The whole life of a builder *)
Lemma finalized_ok : forall n b c, core n None b c ->
  (is_finalized b = true <-> forall i, i < n -> c i <> None).
Proof.
  intros n b c C. unfold is_finalized. rewrite Nat.eqb_eq, (co_unset _ _ _ _ C), unsets_zero.
  rewrite (co_size _ _ _ _ C). split; intros H i Hi.
  - intros E. apply (H i Hi). now apply (unset_iff n b c C).
  - intros E. apply (H i Hi). now apply (unset_iff n b c C).
Qed.
Lemma life_ok : forall n a ops, ops_ok n [] ops ->
  exists b, run ops (new_builder n a) = Some b /\
    (is_finalized b = true <-> forall i, i < n -> content ops i <> None) /\
    forall order, Permutation order (b_map b) -> exists s, build order b = Some s /\ slice_wf s /\
      s_size s = n /\
      (forall i, i < n -> item_at s i = item_of (content ops i)) /\
      (forall i, i < n -> (nth i (s_tidx s) TUnset = TUnset <-> content ops i = None)) /\
      (forall i, i < n -> (nth i (s_tidx s) TUnset = TRemoved <-> content ops i = Some None)).
Proof.
  intros n a ops OK. destruct (run_ok n a ops OK) as (b & R & [G _] & A). exists b. split; [exact R|].
  split; [exact (finalized_ok n b _ G)|]. intros order PM.
  destruct (build_ok n b _ G order PM) as (s & B & [W1 W2 W3 W4 W5 W6 W7]). exists s. auto 10.
Qed.
Lemma life_allocs : forall n a ops b order s, ops_ok n [] ops -> (forall x, In (OAllocs x) ops -> allocs_ok x) ->
  run ops (new_builder n a) = Some b -> Permutation order (b_map b) -> build order b = Some s ->
  s_values s <> [] ->
  forall x, covers (s_allocs s) x <->
    covers a x \/ exists before op rest, ops = before ++ op :: rest /\ gives before op x.
Proof.
  intros n a ops b order s OK HA R PM B NE x. destruct (run_ok n a ops OK) as (b' & R' & [G _] & A).
  assert (b' = b) by congruence. subst b'.
  destruct (build_ok n b _ G order PM) as (s' & B' & [W1 W2 W3 W4 W5 W6 W7]).
  assert (s' = s) by congruence. subst s'. rewrite W6, A by auto. exact (allocs_gives ops [] a x HA).
Qed.
Lemma readers_ok : forall s, slice_wf s ->
  (forall i, i < s_size s -> slice_get s i = Some (item_at s i)) /\
  (forall i, i < s_size s -> slice_present s i = present_item (item_at s i)) /\
  as_items s = items s /\
  slice_count s = length (filter present_item (items s)).
Proof.
  intros s W. split; [intros; now apply slice_get_wf|]. split; [intros i Hi; now apply slice_present_wf|].
  split; [now apply as_items_wf|now apply slice_count_wf].
Qed.
