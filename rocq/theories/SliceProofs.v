(** The invariant of the builder of slices. *)
From Coq Require Import NArith ZArith List Bool Arith Lia Permutation.
From Verif Require Import ObjectIdModel SchemaModel ItemModel SliceModel SliceSpec.
Import ListNotations.
Local Open Scope nat_scope.

(** ** Lists and maps *)
Lemma upd_length {A} : forall i (x : A) l, length (upd i x l) = length l.
Proof. intros i x l; revert i; induction l as [|y l IH]; intros [|i]; cbn; auto. Qed.
Lemma nth_upd {A} : forall i (x : A) l j d, i < length l ->
  nth j (upd i x l) d = if j =? i then x else nth j l d.
Proof.
  intros i x l; revert i; induction l as [|y l IH]; intros [|i] j d H; cbn in *; try lia.
  - destruct j; reflexivity.
  - destruct j; cbn; auto. apply IH. lia.
Qed.
Lemma nth_error_upd {A} : forall i (x : A) l j, i < length l ->
  nth_error (upd i x l) j = if j =? i then Some x else nth_error l j.
Proof.
  intros i x l; revert i; induction l as [|y l IH]; intros [|i] j H; cbn in *; try lia.
  - destruct j; reflexivity.
  - destruct j; cbn; auto. apply IH. lia.
Qed.
Lemma m_find_set : forall m k s k',
  m_find (m_set m k s) k' = if kind_eq_dec k k' then Some s else m_find m k'.
Proof.
  induction m as [|[k0 s0] m IH]; intros k s k'; cbn.
  - destruct (kind_eq_dec k k'); auto.
  - destruct (kind_eq_dec k0 k) as [->|E]; cbn.
    + destruct (kind_eq_dec k k'); auto.
    + destruct (kind_eq_dec k0 k') as [->|E'].
      * destruct (kind_eq_dec k k'); congruence.
      * apply IH.
Qed.
Lemma m_find_add : forall m k s k',
  m_find (m_add m k s) k' =
  match m_find m k' with
  | Some x => Some x
  | None => if kind_eq_dec k k' then Some s else None
  end.
Proof.
  intros m k s k'. unfold m_add. destruct (m_find m k) eqn:E.
  - destruct (m_find m k') eqn:E'; auto. destruct (kind_eq_dec k k'); congruence.
  - rewrite m_find_set. destruct (kind_eq_dec k k') as [->|]; [now rewrite E|].
    destruct (m_find m k'); auto.
Qed.
Lemma m_find_in : forall m k, m_find m k <> None <-> In k (map fst m).
Proof.
  induction m as [|[k0 s0] m IH]; intros k; cbn.
  - split; [congruence|tauto].
  - destruct (kind_eq_dec k0 k) as [->|E].
    + split; auto; congruence.
    + rewrite IH. tauto.
Qed.
Lemma m_set_keys : forall m k s, In k (map fst m) -> map fst (m_set m k s) = map fst m.
Proof.
  induction m as [|[k0 s0] m IH]; intros k s; cbn; [tauto|].
  intros H. destruct (kind_eq_dec k0 k) as [->|E]; cbn; auto.
  f_equal. apply IH. tauto.
Qed.
Lemma m_set_new : forall m k s, ~ In k (map fst m) -> map fst (m_set m k s) = map fst m ++ [k].
Proof.
  induction m as [|[k0 s0] m IH]; intros k s H; cbn in *; auto.
  destruct (kind_eq_dec k0 k) as [->|E]; cbn; [tauto|]. f_equal. apply IH. tauto.
Qed.
Lemma NoDup_snoc {A} : forall (l : list A) x, NoDup l -> ~ In x l -> NoDup (l ++ [x]).
Proof.
  intros l x N H. apply Permutation_NoDup with (x :: l).
  - apply Permutation_cons_append.
  - constructor; auto.
Qed.
Lemma m_add_nodup : forall m k s, NoDup (map fst m) -> NoDup (map fst (m_add m k s)).
Proof.
  intros m k s H. unfold m_add. destruct (m_find m k) eqn:E; auto.
  assert (~ In k (map fst m)) by (rewrite <- m_find_in; congruence).
  rewrite m_set_new by auto. now apply NoDup_snoc.
Qed.
Lemma m_find_pair : forall m k s, NoDup (map fst m) -> (m_find m k = Some s <-> In (k, s) m).
Proof.
  induction m as [|[k0 s0] m IH]; intros k s N; cbn.
  - split; [congruence|tauto].
  - inversion N as [|? ? N1 N2]; subst. destruct (kind_eq_dec k0 k) as [->|E].
    + split; intros H.
      * left. congruence.
      * destruct H as [H|H]; [congruence|]. exfalso. apply N1. now apply (List.in_map fst) in H.
    + rewrite IH by auto. split; auto. intros [H|H]; congruence.
Qed.

(** ** The invariant *)
Definition stor (b : bldr) (k : kind) : option storage :=
  match b_state b with
  | SEmpty => None
  | SFirst => match b_type b with
              | Some k' => if kind_eq_dec k' k then Some (b_first b) else None
              | None => None
              end
  | SMap => m_find (b_map b) k
  end.
Definition data_of (d : sdata) : buffer := match d with Buf x => x | Bld x => x end.
Definition unsets (l : list tidx) : nat :=
  length (filter (fun t => tidx_eqb t TUnset) l).

Definition cells : Type := nat -> option (option value).
Record core (n : nat) (ex : option kind) (b : bldr) (c : cells) : Prop := {
  co_size : length (b_tidx b) = n;
  co_unset : b_unset b = unsets (b_tidx b);
  co_types : NoDup (b_types b);
  co_keys : forall k, ex <> Some k -> (In k (b_types b) <-> stor b k <> None);
  co_stor : forall k s, ex <> Some k -> stor b k = Some s ->
    exists ti d, s = STyped k ti d /\ nth_error (b_types b) ti = Some k /\ length (data_of d) = n;
  co_cells : forall i, i < n ->
    match c i with
    | None => nth i (b_tidx b) TUnset = TUnset
    | Some None => nth i (b_tidx b) TUnset = TRemoved
    | Some (Some v) => exists ti d, ex <> Some (kind_of v) /\
        nth i (b_tidx b) TUnset = TIdx ti /\
        stor b (kind_of v) = Some (STyped (kind_of v) ti d) /\ nth i (data_of d) None = Some v
    end;
  co_state : match b_state b with
             | SEmpty => b_first b = SMono /\ b_current b = PFirst /\ b_type b = None /\ b_map b = []
             | SFirst => b_current b = PFirst /\ b_map b = [] /\ b_type b <> None
             | SMap => NoDup (map fst (b_map b))
             end
}.
Definition ptr_ok (b : bldr) (k : kind) : Prop :=
  b_type b = Some k /\
  match b_state b with
  | SEmpty => False
  | SFirst => b_current b = PFirst
  | SMap => b_current b = PMap k /\ m_find (b_map b) k <> None
  end.
Definition active (b : bldr) : Prop :=
  forall k, b_type b = Some k ->
    ptr_ok b k /\ exists buf, stor b k = Some (STyped k (b_typeidx b) (Bld buf)).
Definition good (n : nat) (b : bldr) (c : cells) : Prop := core n None b c /\ active b.
Definition same_cells (b b' : bldr) : Prop :=
  b_tidx b' = b_tidx b /\ b_unset b' = b_unset b /\ b_allocs b' = b_allocs b.
Definition cupd (c : cells) (i : nat) (x : option value) : cells :=
  fun j => if j =? i then Some x else c j.

Lemma core_ext : forall n ex b c c', (forall i, i < n -> c i = c' i) -> core n ex b c -> core n ex b c'.
Proof.
  intros n ex b c c' E [H1 H2 H3 H4 H5 H6 H7]. constructor; auto.
  intros i Hi. rewrite <- E by auto. now apply H6.
Qed.
Lemma good_ext : forall n b c c', (forall i, i < n -> c i = c' i) -> good n b c -> good n b c'.
Proof. intros n b c c' E [H1 H2]; split; auto. eapply core_ext; eauto. Qed.
Lemma same_cells_trans : forall a b c, same_cells a b -> same_cells b c -> same_cells a c.
Proof. intros a b c (A1 & A2 & A3) (B1 & B2 & B3). repeat split; congruence. Qed.
Lemma same_cells_refl : forall b, same_cells b b.
Proof. repeat split. Qed.

Lemma deref_stor : forall b k, ptr_ok b k -> deref b = stor b k.
Proof.
  intros b k [H1 H2]. unfold deref, stor. destruct (b_state b).
  - tauto.
  - rewrite H2, H1. destruct (kind_eq_dec k k); congruence.
  - destruct H2 as [-> _]. reflexivity.
Qed.
Lemma store_stor : forall b k s, ptr_ok b k ->
  exists b', store b s = Some b' /\ ptr_ok b' k /\ same_cells b b' /\
    b_types b' = b_types b /\ b_typeidx b' = b_typeidx b /\ b_state b' = b_state b /\
    stor b' k = Some s /\ (forall k', k' <> k -> stor b' k' = stor b k') /\
    map fst (b_map b') = map fst (b_map b) /\ b_current b' = b_current b /\ b_type b' = b_type b.
Proof.
  intros b k s [H1 H2]. unfold store. destruct (b_state b) eqn:ES.
  - tauto.
  - rewrite H2. eexists; split; [reflexivity|].
    unfold ptr_ok, same_cells, stor; cbn. rewrite ES, H1.
    repeat split; auto.
    + destruct (kind_eq_dec k k); congruence.
    + intros k' Hk. destruct (kind_eq_dec k k'); congruence.
  - destruct H2 as [H2 H3]. rewrite H2. eexists; split; [reflexivity|].
    assert (Hk : In k (map fst (b_map b))) by now apply m_find_in.
    unfold ptr_ok, same_cells, stor; cbn. rewrite ES.
    repeat split; auto.
    + rewrite m_find_set. destruct (kind_eq_dec k k); congruence.
    + rewrite m_find_set. destruct (kind_eq_dec k k); congruence.
    + intros k' Hk'. rewrite m_find_set. destruct (kind_eq_dec k k'); congruence.
    + now apply m_set_keys.
Qed.

(** the state after current_type_id_ was changed *)
Lemma change_type_ok : forall n b c k, good n b c -> b_type b <> Some k ->
  exists b1, change_type k b = Some b1 /\ ptr_ok b1 k /\ same_cells b b1 /\
    b_types b1 = b_types b /\
    (In k (b_types b) -> core n None b1 c) /\
    (~ In k (b_types b) -> core n (Some k) b1 c /\ stor b1 k = Some SMono).
Proof.
  intros n b c k [C A] T. destruct C as [H1 H2 H3 H4 H5 H6 H7].
  unfold change_type. destruct (b_state b) eqn:ES.
  - destruct H7 as (F1 & F2 & F3 & F4). eexists; split; [reflexivity|].
    assert (NT : forall k, ~ In k (b_types b)).
    { intros k' Hk. apply (H4 k') in Hk; [|discriminate]. unfold stor in Hk. rewrite ES in Hk. tauto. }
    split. { split; cbn; auto. }
    split. { repeat split. }
    split; [reflexivity|].
    split. { intros Hk. exfalso. eapply NT; eauto. }
    intros _. split.
    + constructor; cbn; auto.
      * intros k' Hk. unfold stor; cbn. destruct (kind_eq_dec k k') as [->|]; [congruence|].
        split; [intros HI; exfalso; eapply NT; eauto|congruence].
      * intros k' s Hk. unfold stor; cbn. destruct (kind_eq_dec k k') as [->|]; congruence.
      * intros i Hi. specialize (H6 i Hi). destruct (c i) as [[v|]|]; auto.
        destruct H6 as (ti & d & _ & _ & HS & _). unfold stor in HS. rewrite ES in HS. discriminate.
      * repeat split; auto. discriminate.
    + unfold stor; cbn. destruct (kind_eq_dec k k); congruence.
  - destruct H7 as (F1 & F2 & F3). destruct (b_type b) as [k0|] eqn:ET; [|congruence].
    assert (Hk0 : k0 <> k) by congruence.
    eexists; split; [reflexivity|]. rewrite F2. cbn [m_add m_find m_set].
    assert (SK : forall k', stor b k' = if kind_eq_dec k0 k' then Some (b_first b) else None).
    { intros k'. unfold stor. now rewrite ES, ET. }
    assert (NT : ~ In k (b_types b)).
    { intros Hk. apply (H4 k) in Hk; [|discriminate]. rewrite SK in Hk.
      destruct (kind_eq_dec k0 k); congruence. }
    assert (MF : m_add [(k0, b_first b)] k SMono = [(k0, b_first b); (k, SMono)]).
    { unfold m_add; cbn. destruct (kind_eq_dec k0 k); congruence. }
    rewrite MF.
    split. { split; cbn; auto. split; auto. destruct (kind_eq_dec k0 k); [congruence|].
             destruct (kind_eq_dec k k); congruence. }
    split. { repeat split. }
    split; [reflexivity|].
    split. { intros Hk. tauto. }
    intros _. split.
    + constructor; cbn; auto.
      * intros k' Hk. rewrite (H4 k') by discriminate. rewrite SK. unfold stor; cbn.
        destruct (kind_eq_dec k0 k'); [tauto|]. destruct (kind_eq_dec k k') as [->|]; [congruence|tauto].
      * intros k' s Hk. unfold stor; cbn. intros HS.
        apply (H5 k' s); [discriminate|]. rewrite SK.
        destruct (kind_eq_dec k0 k'); auto. destruct (kind_eq_dec k k') as [->|]; congruence.
      * intros i Hi. specialize (H6 i Hi). destruct (c i) as [[v|]|]; auto.
        destruct H6 as (ti & d & _ & T1 & T2 & T3). rewrite SK in T2.
        destruct (kind_eq_dec k0 (kind_of v)) as [E|]; [|discriminate].
        exists ti, d. split; [congruence|]. split; [exact T1|]. split; [|exact T3].
        unfold stor; cbn. destruct (kind_eq_dec k0 (kind_of v)); [auto|congruence].
      * constructor; [|constructor; [tauto|constructor]]. cbn. intros [E|[]]. congruence.
    + unfold stor; cbn. destruct (kind_eq_dec k0 k); [congruence|]. destruct (kind_eq_dec k k); congruence.
  - eexists; split; [reflexivity|].
    assert (SK : forall k', stor b k' = m_find (b_map b) k').
    { intros k'. unfold stor. now rewrite ES. }
    split. { split; cbn; auto. split; auto. rewrite m_find_add.
             destruct (m_find (b_map b) k); [congruence|]. destruct (kind_eq_dec k k); congruence. }
    split. { repeat split. }
    split; [reflexivity|].
    split.
    + intros Hk. apply (H4 k) in Hk; [|discriminate]. rewrite SK in Hk.
      assert (SK' : forall k', m_find (m_add (b_map b) k SMono) k' = m_find (b_map b) k').
      { intros k'. rewrite m_find_add. destruct (m_find (b_map b) k') eqn:E; auto.
        destruct (kind_eq_dec k k') as [->|]; congruence. }
      constructor; cbn; auto.
      * intros k' X. unfold stor; cbn. rewrite SK', <- SK. auto.
      * intros k' s X. unfold stor; cbn. rewrite SK', <- SK. auto.
      * intros i Hi. specialize (H6 i Hi). destruct (c i) as [[v|]|]; auto.
        unfold stor; cbn. rewrite SK', <- SK. auto.
      * now apply m_add_nodup.
    + intros NT.
      assert (FN : m_find (b_map b) k = None).
      { destruct (m_find (b_map b) k) eqn:E; auto. exfalso. apply NT. apply (H4 k); [discriminate|].
        rewrite SK. congruence. }
      split.
      * constructor; cbn; auto.
        -- intros k' X. unfold stor; cbn. rewrite m_find_add.
           rewrite (H4 k') by discriminate. rewrite SK.
           destruct (m_find (b_map b) k'); [tauto|]. destruct (kind_eq_dec k k') as [->|]; [congruence|tauto].
        -- intros k' s X. unfold stor; cbn. rewrite m_find_add. intros HS. apply (H5 k' s); [discriminate|].
           rewrite SK. destruct (m_find (b_map b) k'); auto.
           destruct (kind_eq_dec k k') as [->|]; congruence.
        -- intros i Hi. specialize (H6 i Hi). destruct (c i) as [[v|]|]; auto.
           destruct H6 as (ti & d & _ & T1 & T2 & T3). rewrite SK in T2.
           exists ti, d. split; [congruence|]. split; [exact T1|]. split; [|exact T3].
           unfold stor; cbn. rewrite m_find_add, T2. reflexivity.
        -- now apply m_add_nodup.
      * unfold stor; cbn. rewrite m_find_add, FN. destruct (kind_eq_dec k k); congruence.
Qed.

Lemma nodup_index {A} : forall (l : list A) i j x, NoDup l ->
  nth_error l i = Some x -> nth_error l j = Some x -> i = j.
Proof.
  intros l i j x N H1 H2. eapply NoDup_nth_error; eauto; [|congruence].
  apply nth_error_Some. congruence.
Qed.

Lemma nth_masked : forall ts buf ti i, length buf = length ts ->
  nth i (map (fun '(t, x) => if tidx_eqb t (TIdx ti) then x else None) (combine ts buf)) (@None value) =
  if tidx_eqb (nth i ts TUnset) (TIdx ti) then nth i buf None else None.
Proof.
  induction ts as [|t ts IH]; intros [|x buf] ti i H; cbn in *; try lia.
  - destruct i; cbn; auto.
  - destruct i; cbn; auto.
Qed.

Lemma set_typeidx_core : forall n ex b c t, core n ex b c -> core n ex (set_typeidx b t) c.
Proof. intros n ex b c t []. constructor; auto. Qed.

(** a storage of the type is made ready for single values *)
Lemma from_current_ok : forall n b c k, core n None b c -> ptr_ok b k -> In k (b_types b) ->
  exists b', from_current k b = Some b' /\ good n b' c /\ b_type b' = Some k /\ same_cells b b' /\
    b_types b' = b_types b.
Proof.
  intros n b c k C P I. unfold from_current. rewrite (deref_stor b k P).
  destruct (stor b k) as [s|] eqn:ES.
  2:{ exfalso. apply (co_keys _ _ _ _ C k) in I; [congruence|discriminate]. }
  destruct (co_stor _ _ _ _ C k s ltac:(discriminate) ES) as (ti & d & -> & TI & LD).
  destruct (kind_eq_dec k k) as [_|]; [|congruence].
  destruct d as [buf|buf]; cbn [data_of] in LD.
  - destruct (store_stor (set_typeidx b ti) k
      (STyped k ti (Bld (map (fun '(t, x) => if tidx_eqb t (TIdx ti) then x else None)
                           (combine (b_tidx (set_typeidx b ti)) buf)))))
      as (b' & E & P' & SC & TY & TX & ST & S1 & S2 & KM & CU & BT).
    { exact P. }
    exists b'. split; [exact E|]. cbn in TY, TX, ST, S1, S2, KM, CU, BT.
    assert (SC' : same_cells b b') by exact SC.
    destruct SC as (SC1 & SC2 & SC3). cbn in SC1, SC2, SC3.
    split; [split|].
    + destruct C as [H1 H2 H3 H4 H5 H6 H7]. constructor.
      * congruence.
      * congruence.
      * congruence.
      * intros k' _. rewrite TY. rewrite (H4 k') by discriminate.
        destruct (kind_eq_dec k' k) as [->|X]; [rewrite S1, ES; split; congruence|].
        rewrite S2 by auto. unfold stor; cbn. tauto.
      * intros k' s _ HS. rewrite TY. destruct (kind_eq_dec k' k) as [->|X].
        -- rewrite S1 in HS. inversion HS; subst s. exists ti. eexists. split; [reflexivity|].
           split; auto. cbn [data_of]. rewrite map_length, combine_length. lia.
        -- rewrite S2 in HS by auto. apply (H5 k' s); [discriminate|exact HS].
      * intros i Hi. specialize (H6 i Hi). rewrite SC1. destruct (c i) as [[v|]|]; auto.
        destruct H6 as (ti' & d & _ & T1 & T2 & T3).
        destruct (kind_eq_dec (kind_of v) k) as [X|X].
        -- rewrite X in *. assert (ti' = ti) by congruence. subst ti'.
           assert (d = Buf buf) by congruence. subst d. cbn in T3.
           exists ti. eexists. split; [discriminate|]. split; auto. split; [exact S1|].
           cbn [data_of]. rewrite nth_masked by (cbn; congruence).
           cbn. rewrite T1. cbn. now rewrite Nat.eqb_refl.
        -- exists ti', d. split; [discriminate|]. split; auto. rewrite S2 by auto. split; auto.
      * rewrite ST, CU, BT, KM. destruct (b_state b) eqn:EB; auto.
        -- destruct P as [_ P]. rewrite EB in P. tauto.
        -- destruct H7 as (F1 & F2 & F3). repeat split; auto.
           apply map_eq_nil with (f := fst). now rewrite KM, F2.
    + intros k' Hk'. assert (k' = k) by (destruct P' as [P1 _]; congruence). subst k'.
      split; auto. eexists. rewrite S1. now rewrite TX.
    + split; [apply P'|]. split; auto.
  - exists (set_typeidx b ti). split; [reflexivity|]. split; [split|].
    + now apply set_typeidx_core.
    + intros k' Hk'. assert (k' = k) by (destruct P as [P1 _]; cbn in Hk'; congruence). subst k'.
      split; [exact P|]. exists buf. exact ES.
    + split; [apply P|]. split; [repeat split|reflexivity].
Qed.

(** a storage for a new type *)
Lemma new_storage_ok : forall n b c k d, core n (Some k) b c -> ptr_ok b k -> ~ In k (b_types b) ->
  length (data_of d) = n ->
  exists b', store b (STyped k (length (b_types b)) d) = Some b' /\
    core n None (add_type b' k) c /\ ptr_ok (add_type b' k) k /\ same_cells b b' /\
    b_types b' = b_types b /\ b_typeidx b' = b_typeidx b /\
    stor (add_type b' k) k = Some (STyped k (length (b_types b)) d).
Proof.
  intros n b c k d C P NI LD.
  destruct (store_stor b k (STyped k (length (b_types b)) d) P)
    as (b' & E & P' & SC & TY & TX & ST & S1 & S2 & KM & CU & BT).
  exists b'. split; [exact E|].
  destruct SC as (SC1 & SC2 & SC3).
  assert (SK : forall k', stor (add_type b' k) k' = stor b' k') by reflexivity.
  split.
  - destruct C as [H1 H2 H3 H4 H5 H6 H7]. constructor; cbn [add_type b_tidx b_unset b_types b_state b_first b_current b_type b_map].
    + congruence.
    + congruence.
    + rewrite TY. apply NoDup_snoc; auto.
    + intros k' _. rewrite SK, TY, in_app_iff. cbn. destruct (kind_eq_dec k' k) as [->|X].
      * rewrite S1. split; auto; congruence.
      * rewrite S2 by auto. rewrite (H4 k') by congruence. split; [intros [X1|[X1|[]]]; congruence|tauto].
    + intros k' s _ HS. rewrite SK in HS. rewrite TY. destruct (kind_eq_dec k' k) as [->|X].
      * rewrite S1 in HS. inversion HS; subst s. exists (length (b_types b)), d. split; auto.
        split; auto. rewrite nth_error_app2 by lia. now rewrite Nat.sub_diag.
      * rewrite S2 in HS by auto. destruct (H5 k' s ltac:(congruence) HS) as (ti & d' & -> & T1 & T2).
        exists ti, d'. split; auto. split; auto. rewrite nth_error_app1; auto.
        apply nth_error_Some. congruence.
    + intros i Hi. specialize (H6 i Hi). rewrite SC1. destruct (c i) as [[v|]|]; auto.
      destruct H6 as (ti & d' & X & T1 & T2 & T3). exists ti, d'. split; [discriminate|]. split; auto.
      rewrite SK, S2 by congruence. auto.
    + rewrite ST, CU, BT, KM. destruct (b_state b) eqn:EB; auto.
      * destruct P as [_ P]. rewrite EB in P. tauto.
      * destruct H7 as (F1 & F2 & F3). repeat split; auto.
        apply map_eq_nil with (f := fst). now rewrite KM, F2.
  - split; [exact P'|]. split; [repeat split; auto|]. split; auto.
Qed.

Lemma with_type_change_ok : forall n b c k, good n b c -> b_type b <> Some k ->
  exists b', with_type_change k b = Some b' /\ good n b' c /\ b_type b' = Some k /\ same_cells b b'.
Proof.
  intros n b c k G T. unfold with_type_change.
  destruct (change_type_ok n b c k G T) as (b1 & E & P & SC & TY & K1 & K2). rewrite E. cbn [obind].
  rewrite (deref_stor b1 k P).
  destruct (in_dec kind_eq_dec k (b_types b)) as [I|I].
  - assert (I1 : In k (b_types b1)) by congruence. specialize (K1 I).
    destruct (from_current_ok n b1 c k K1 P I1) as (b' & E' & G' & T' & SC' & _).
    destruct (stor b1 k) as [s|] eqn:ES.
    2:{ exfalso. apply (co_keys _ _ _ _ K1 k) in I1; [congruence|discriminate]. }
    destruct (co_stor _ _ _ _ K1 k s ltac:(discriminate) ES) as (ti & d & -> & TI & LD).
    exists b'. split; [exact E'|]. split; auto. split; auto. eapply same_cells_trans; eauto.
  - destruct (K2 I) as (C1 & S1). rewrite S1.
    set (t := length (b_types b1)).
    destruct (new_storage_ok n (set_typeidx b1 t) c k (Bld (repeat None (b_size b1))))
      as (b' & E' & C' & P' & SC' & TY' & TX' & S').
    + now apply set_typeidx_core.
    + exact P.
    + cbn. congruence.
    + cbn. rewrite repeat_length. unfold b_size. now apply (co_size _ _ _ _ C1).
    + cbn [set_typeidx b_types] in E'. fold t in E'. rewrite E'. cbn [obind].
      exists (add_type b' k). split; [reflexivity|].
      assert (BT : b_type (add_type b' k) = Some k) by apply P'.
      split; [split; auto|].
      * intros k' Hk'. assert (k' = k) by congruence. subst k'. split; auto.
        exists (repeat None (b_size b1)). rewrite S'.
        assert (X : b_typeidx (add_type b' k) = length (b_types (set_typeidx b1 t))) by exact TX'.
        rewrite X. reflexivity.
      * split; auto. eapply same_cells_trans; [exact SC|].
        destruct SC' as (X1 & X2 & X3). repeat split; auto.
Qed.

Lemma get_builder_ok : forall n b c k, good n b c ->
  exists b', get_builder k b = Some b' /\ good n b' c /\ b_type b' = Some k /\ same_cells b b'.
Proof.
  intros n b c k G. unfold get_builder. destruct (b_type b) as [k'|] eqn:ET.
  - destruct (kind_eq_dec k' k) as [->|X].
    + exists b. split; [reflexivity|]. split; [exact G|]. split; [exact ET|]. apply same_cells_refl.
    + apply with_type_change_ok with (c := c); auto. congruence.
  - apply with_type_change_ok with (c := c); auto. congruence.
Qed.

(** ** Cells *)
Lemma unsets_upd : forall l i t, i < length l -> nth i l TUnset = TUnset -> t <> TUnset ->
  unsets (upd i t l) = pred (unsets l) /\ 0 < unsets l.
Proof.
  unfold unsets. induction l as [|x l IH]; intros [|i] t L E T; cbn in *; try lia.
  - subst x. destruct t; cbn; try congruence; split; auto; lia.
  - destruct (IH i t ltac:(lia) E T) as [I1 I2]. destruct x; cbn; rewrite ?I1; split; auto; lia.
Qed.
Lemma is_unset_true : forall b i, is_unset b i = true <-> nth i (b_tidx b) TUnset = TUnset.
Proof. intros b i. unfold is_unset. destruct (nth i (b_tidx b) TUnset); split; congruence. Qed.
Lemma is_unset_cell : forall n ex b c i, core n ex b c -> i < n ->
  is_unset b i = match c i with None => true | Some _ => false end.
Proof.
  intros n ex b c i C Hi. pose proof (co_cells _ _ _ _ C i Hi) as H. unfold is_unset.
  destruct (c i) as [[v|]|].
  - destruct H as (ti & d & _ & -> & _). reflexivity.
  - now rewrite H.
  - now rewrite H.
Qed.

Lemma set_tidx_core : forall n b c i x t, core n None b c -> i < n -> c i = None ->
  match x with
  | None => t = TRemoved
  | Some v => exists ti d, t = TIdx ti /\ stor b (kind_of v) = Some (STyped (kind_of v) ti d) /\
                           nth i (data_of d) None = Some v
  end ->
  core n None (set_tidx b i t) (cupd c i x).
Proof.
  intros n b c i x t C Hi CN HX. pose proof (co_cells _ _ _ _ C i Hi) as HC. rewrite CN in HC.
  assert (T : t <> TUnset).
  { destruct x as [v|]; [destruct HX as (ti & d & -> & _)|subst t]; discriminate. }
  destruct C as [H1 H2 H3 H4 H5 H6 H7].
  constructor; auto; cbn [set_tidx b_tidx b_unset b_types].
  - now rewrite upd_length.
  - rewrite H2. symmetry. apply unsets_upd; auto. lia.
  - intros j Hj. rewrite nth_upd by lia. unfold cupd. destruct (j =? i) eqn:EJ.
    + apply Nat.eqb_eq in EJ. subst j. destruct x as [v|]; auto.
      destruct HX as (ti & d & -> & S1 & S2). exists ti, d. split; [discriminate|]. auto.
    + apply H6; auto.
Qed.
Lemma set_tidx_active : forall b i t, active b -> active (set_tidx b i t).
Proof. intros b i t A k H. apply (A k H). Qed.
Lemma set_tidx_removed : forall n b c i, good n b c -> i < n -> c i = None ->
  good n (set_tidx b i TRemoved) (cupd c i None).
Proof.
  intros n b c i [C A] Hi CN. split.
  - apply set_tidx_core; auto.
  - now apply set_tidx_active.
Qed.

Lemma buf_set_ok : forall n b c k i v, good n b c -> b_type b = Some k -> kind_of v = k ->
  i < n -> c i = None ->
  exists b', buf_set k i v b = Some b' /\ good n b' c /\ b_type b' = Some k /\ same_cells b b' /\
    b_typeidx b' = b_typeidx b /\
    exists d, stor b' k = Some (STyped k (b_typeidx b') d) /\ nth i (data_of d) None = Some v.
Proof.
  intros n b c k i v [C A] T KV Hi CN. destruct (A k T) as (P & buf & ES).
  unfold buf_set. rewrite (deref_stor b k P), ES. destruct (kind_eq_dec k k) as [_|]; [|congruence].
  destruct (co_stor _ _ _ _ C k _ ltac:(discriminate) ES) as (ti & d & EQ & TI & LD).
  inversion EQ; subst ti d. cbn in LD. rewrite LD.
  destruct (i <? n) eqn:EL; [|apply Nat.ltb_ge in EL; lia].
  destruct (store_stor b k (STyped k (b_typeidx b) (Bld (upd i (Some v) buf))) P)
    as (b' & E & P' & SC & TY & TX & ST & S1 & S2 & KM & CU & BT).
  exists b'. split; [exact E|].
  assert (SC' := SC). destruct SC as (SC1 & SC2 & SC3).
  split; [split|].
  - destruct C as [H1 H2 H3 H4 H5 H6 H7]. constructor.
    + congruence.
    + congruence.
    + congruence.
    + intros k' _. rewrite TY. rewrite (H4 k') by discriminate.
      destruct (kind_eq_dec k' k) as [->|X]; [rewrite S1, ES; split; congruence|]. now rewrite S2.
    + intros k' s _ HS. rewrite TY. destruct (kind_eq_dec k' k) as [->|X].
      * rewrite S1 in HS. inversion HS; subst s. do 2 eexists. split; [reflexivity|].
        split; auto. cbn. now rewrite upd_length.
      * rewrite S2 in HS by auto. apply (H5 k' s); [discriminate|exact HS].
    + intros j Hj. pose proof (H6 j Hj) as H6j. rewrite SC1. destruct (c j) as [[w|]|] eqn:CJ; auto.
      assert (j <> i) by congruence.
      destruct H6j as (ti' & d & _ & T1 & T2 & T3).
      destruct (kind_eq_dec (kind_of w) k) as [X|X].
      * rewrite X in *. rewrite ES in T2. inversion T2; subst ti' d. cbn in T3.
        do 2 eexists. split; [discriminate|]. split; [exact T1|]. split; [exact S1|]. cbn.
        rewrite nth_upd by lia. destruct (j =? i) eqn:EJ; [apply Nat.eqb_eq in EJ; congruence|auto].
      * exists ti', d. split; [discriminate|]. split; auto. rewrite S2 by auto. auto.
    + rewrite ST, CU, BT, KM. destruct (b_state b) eqn:EB; auto.
      * destruct P as [_ P]. rewrite EB in P. tauto.
      * destruct H7 as (F1 & F2 & F3). repeat split; auto.
        apply map_eq_nil with (f := fst). now rewrite KM, F2.
  - intros k' Hk'. assert (k' = k) by congruence. subst k'. split; auto. eexists. rewrite TX. exact S1.
  - split; [congruence|]. split; auto. split; auto. eexists. split; [rewrite TX; exact S1|]. cbn.
    rewrite nth_upd by lia. now rewrite Nat.eqb_refl.
Qed.
Lemma buf_set_tidx : forall k i v b j t,
  buf_set k i v (set_tidx b j t) = option_map (fun b => set_tidx b j t) (buf_set k i v b).
Proof.
  intros k i v b j t. unfold buf_set, deref, store.
  cbn [set_tidx b_map b_first b_state b_current b_type b_typeidx b_tidx b_types b_unset b_allocs].
  destruct (b_current b) as [|k0|]; auto.
  - destruct (b_first b) as [|k' ti [x|x]]; auto. destruct (kind_eq_dec k' k); auto.
    destruct (i <? length x); reflexivity.
  - destruct (m_find (b_map b) k0) as [[|k' ti [x|x]]|]; auto. destruct (kind_eq_dec k' k); auto.
    destruct (i <? length x); reflexivity.
Qed.

(** a value is put at a position while the builder of its type is current *)
Lemma put_value : forall n b c k i v, good n b c -> b_type b = Some k -> kind_of v = k ->
  i < n -> c i = None ->
  exists b', buf_set k i v b = Some b' /\ b_typeidx b' = b_typeidx b /\ b_type b' = Some k /\
    same_cells b b' /\
    good n (set_tidx b' i (TIdx (b_typeidx b'))) (cupd c i (Some v)).
Proof.
  intros n b c k i v G T KV Hi CN.
  destruct (buf_set_ok n b c k i v G T KV Hi CN) as (b' & E & [C' A'] & T' & SC & TX & d & S1 & S2).
  exists b'. do 4 (split; auto). split.
  - apply set_tidx_core; auto. exists (b_typeidx b'), d. rewrite KV. auto.
  - now apply set_tidx_active.
Qed.

(** ** The operations *)
Lemma insert_new_ok : forall n b c i x, good n b c -> i < n -> c i = None ->
  exists b', insert_new i x b = Some b' /\ good n b' (cupd c i x) /\ b_allocs b' = b_allocs b.
Proof.
  intros n b c i x G Hi CN. unfold insert_new.
  assert (SZ : b_size b = n) by apply G.
  assert (U : is_unset b i = true) by (rewrite (is_unset_cell _ _ _ _ i (proj1 G) Hi), CN; auto).
  rewrite SZ, U. destruct (i <? n) eqn:EL; [|apply Nat.ltb_ge in EL; lia]. cbn [negb andb].
  destruct x as [v|].
  - destruct (get_builder_ok n b c (kind_of v) G) as (b1 & E1 & G1 & T1 & SC1). rewrite E1. cbn [obind].
    destruct (put_value n b1 c (kind_of v) i v G1 T1 eq_refl Hi CN) as (b2 & E2 & _ & _ & SC2 & G2).
    rewrite E2. cbn [obind]. eexists. split; [reflexivity|]. split; auto.
    cbn. destruct SC1 as (_ & _ & <-), SC2 as (_ & _ & <-). reflexivity.
  - eexists. split; [reflexivity|]. split; auto. now apply set_tidx_removed.
Qed.

(** positions keep what was said first *)
Definition over (c : cells) (f : nat -> option (option value)) : cells :=
  fun i => match c i with Some x => Some x | None => f i end.
Definition at_pos (i : nat) (x : option value) : nat -> option (option value) :=
  fun j => if i =? j then Some x else None.

Lemma over_at : forall c i x j, c i = None -> cupd c i x j = over c (at_pos i x) j.
Proof.
  intros c i x j H. unfold cupd, over, at_pos. rewrite (Nat.eqb_sym i j).
  destruct (j =? i) eqn:E; [apply Nat.eqb_eq in E; subst; now rewrite H|]. destruct (c j); auto.
Qed.
Lemma over_at_set : forall c i x y j, c i = Some y -> c j = over c (at_pos i x) j.
Proof.
  intros c i x y j H. unfold over, at_pos. destruct (c j) eqn:E; auto.
  destruct (i =? j) eqn:EJ; auto. apply Nat.eqb_eq in EJ. congruence.
Qed.

Lemma insert_ok : forall n b c i x, good n b c -> i < n ->
  exists b', insert i x b = Some b' /\ good n b' (over c (at_pos i x)) /\ b_allocs b' = b_allocs b.
Proof.
  intros n b c i x G Hi. unfold insert.
  assert (SZ : b_size b = n) by apply G. rewrite SZ.
  destruct (i <? n) eqn:EL; [|apply Nat.ltb_ge in EL; lia]. cbn [negb].
  rewrite (is_unset_cell _ _ _ _ i (proj1 G) Hi). destruct (c i) as [y|] eqn:CI.
  - exists b. split; auto. split; auto. eapply good_ext; [|exact G]. intros j _. eapply over_at_set; eauto.
  - destruct (insert_new_ok n b c i x G Hi CI) as (b' & E & G' & A). exists b'. split; auto. split; auto.
    eapply good_ext; [|exact G']. intros j _. now apply over_at.
Qed.

Lemma good_allocs : forall n b c a, good n b c -> good n (set_alloc_ids b a) c.
Proof. intros n b c a [[] A]. split; [constructor; auto|exact A]. Qed.
Definition al_item (x : option value) (a : allocs) : allocs :=
  match x with
  | Some (existT _ KObjectId o) => al_insert (allocation_of o) a
  | _ => a
  end.
Lemma insert_new_alloc_ok : forall n b c i x, good n b c -> i < n -> c i = None ->
  exists b', insert_new_alloc i x b = Some b' /\ good n b' (over c (at_pos i x)) /\
    b_allocs b' = al_item x (b_allocs b).
Proof.
  intros n b c i x G Hi CN. unfold insert_new_alloc.
  destruct (insert_new_ok n b c i x G Hi CN) as (b' & E & G' & A). rewrite E. cbn [obind].
  eexists. split; [reflexivity|].
  assert (G2 : good n b' (over c (at_pos i x))).
  { eapply good_ext; [|exact G']. intros j _. now apply over_at. }
  unfold al_item. destruct x as [[[] v]|]; cbn; auto. split; [now apply good_allocs|]. now rewrite A.
Qed.
Lemma insert_alloc_ok : forall n b c i x, good n b c -> i < n ->
  exists b', insert_alloc i x b = Some b' /\ good n b' (over c (at_pos i x)) /\
    b_allocs b' = match c i with None => al_item x (b_allocs b) | Some _ => b_allocs b end.
Proof.
  intros n b c i x G Hi. unfold insert_alloc.
  assert (SZ : b_size b = n) by apply G. rewrite SZ.
  destruct (i <? n) eqn:EL; [|apply Nat.ltb_ge in EL; lia]. cbn [negb].
  rewrite (is_unset_cell _ _ _ _ i (proj1 G) Hi). destruct (c i) as [y|] eqn:CI.
  - exists b. split; auto. split; auto. eapply good_ext; [|exact G]. intros j _. eapply over_at_set; eauto.
  - now apply insert_new_alloc_ok.
Qed.

Lemma ofold_cons {A B} : forall (f : A -> B -> option B) a l b,
  ofold f (a :: l) b = obind (f a b) (ofold f l).
Proof.
  intros f a l b. unfold ofold. cbn. destruct (f a b) as [b'|]; cbn; auto.
  induction l; cbn; auto.
Qed.
Lemma ofold_app {A B} : forall (f : A -> B -> option B) l1 l2 b,
  ofold f (l1 ++ l2) b = obind (ofold f l1 b) (ofold f l2).
Proof.
  intros f l1; induction l1 as [|a l1 IH]; intros l2 b; [reflexivity|].
  rewrite <- app_comm_cons, !ofold_cons. destruct (f a b); cbn; auto.
Qed.

Lemma typed_insert_ok : forall n b c k i x, good n b c -> b_type b = Some k -> i < n -> kind_ok k x ->
  exists b', typed_insert k i x b = Some b' /\ good n b' (over c (at_pos i x)) /\
    b_type b' = Some k /\ b_allocs b' = b_allocs b.
Proof.
  intros n b c k i x G T Hi KX. unfold typed_insert.
  assert (SZ : b_size b = n) by apply G. rewrite SZ.
  destruct (i <? n) eqn:EL; [|apply Nat.ltb_ge in EL; lia]. cbn [negb].
  rewrite (is_unset_cell _ _ _ _ i (proj1 G) Hi). destruct (c i) as [y|] eqn:CI; cbn [negb].
  - exists b. split; auto. split; auto. eapply good_ext; [|exact G]. intros j _. eapply over_at_set; eauto.
  - destruct x as [v|].
    + destruct (put_value n b c k i v G T KX Hi CI) as (b2 & E2 & _ & T2 & (_ & _ & A2) & G2).
      rewrite E2. cbn [obind]. eexists. split; [reflexivity|]. split; auto.
      eapply good_ext; [|exact G2]. intros j _. now apply over_at.
    + eexists. split; [reflexivity|]. split; auto.
      eapply good_ext; [|apply set_tidx_removed; eauto]. intros j _. now apply over_at.
Qed.
Lemma over_over : forall c f g i,
  over (over c f) g i = over c (fun j => match f j with Some x => Some x | None => g j end) i.
Proof. intros c f g i. unfold over. destruct (c i); auto. Qed.
Lemma typed_loop_ok : forall n k ws b c, good n b c -> b_type b = Some k ->
  Forall (fun w => fst w < n /\ kind_ok k (snd w)) ws ->
  exists b', ofold (fun w => typed_insert k (fst w) (snd w)) ws b = Some b' /\
    good n b' (over c (first_write ws)) /\ b_allocs b' = b_allocs b.
Proof.
  intros n k ws; induction ws as [|[i x] ws IH]; intros b c G T F.
  - exists b. split; auto. split; auto. eapply good_ext; [|exact G]. intros j _. unfold over. cbn.
    destruct (c j); auto.
  - inversion F as [|? ? [F1 F2] F3]; subst. cbn in F1, F2.
    destruct (typed_insert_ok n b c k i x G T F1 F2) as (b1 & E1 & G1 & T1 & A1).
    destruct (IH b1 _ G1 T1 F3) as (b2 & E2 & G2 & A2).
    exists b2. rewrite ofold_cons. cbn [fst snd]. rewrite E1. cbn [obind]. split; auto.
    split; [|congruence]. eapply good_ext; [|exact G2]. intros j _. rewrite over_over.
    unfold over, at_pos. destruct (c j); auto. cbn. destruct (i =? j); auto.
Qed.

Lemma apply_mask_ok : forall n b c m, good n b c ->
  good n (apply_mask m b) (over c (fun i => if bit m i then None else Some None)) /\
  b_allocs (apply_mask m b) = b_allocs b.
Proof.
  intros n b c m G. unfold apply_mask. replace (b_size b) with n by (symmetry; apply G).
  assert (L : forall l b c, good n b c -> Forall (fun i => i < n) l ->
     let b' := fold_left (fun b i => if negb (bit m i) && is_unset b i then set_tidx b i TRemoved else b) l b in
     good n b' (over c (fun i => if existsb (Nat.eqb i) l && negb (bit m i) then Some None else None)) /\
     b_allocs b' = b_allocs b).
  { induction l as [|i l IH]; intros b0 c0 G0 F; cbn [fold_left].
    - cbn. split; auto. eapply good_ext; [|exact G0]. intros j _. unfold over. destruct (c0 j); auto.
    - inversion F as [|? ? F1 F2]; subst.
      assert (G1 : good n (if negb (bit m i) && is_unset b0 i then set_tidx b0 i TRemoved else b0)
                     (over c0 (fun j => if (j =? i) && negb (bit m i) then Some None else None)) /\
                   b_allocs (if negb (bit m i) && is_unset b0 i then set_tidx b0 i TRemoved else b0) =
                     b_allocs b0).
      { rewrite (is_unset_cell _ _ _ _ i (proj1 G0) F1).
        destruct (bit m i) eqn:EB; cbn [negb andb].
        - split; auto. eapply good_ext; [|exact G0]. intros j _. unfold over. rewrite andb_false_r.
          destruct (c0 j); auto.
        - destruct (c0 i) eqn:CI.
          + split; auto. eapply good_ext; [|exact G0]. intros j _. unfold over. destruct (c0 j) eqn:CJ; auto.
            destruct (j =? i) eqn:EJ; auto. apply Nat.eqb_eq in EJ. congruence.
          + split; auto. eapply good_ext; [|apply set_tidx_removed; eauto]. intros j _.
            unfold over, cupd. destruct (j =? i) eqn:EJ; cbn.
            * apply Nat.eqb_eq in EJ. subst j. now rewrite CI.
            * destruct (c0 j); auto. }
      destruct G1 as [G1 A1]. destruct (IH _ _ G1 F2) as [G2 A2].
      split; [|congruence]. eapply good_ext; [|exact G2]. intros j _. rewrite over_over.
      unfold over. destruct (c0 j); auto. cbn.
      destruct (j =? i) eqn:EJ; cbn; auto. apply Nat.eqb_eq in EJ. subst j.
      destruct (bit m i); cbn; auto. destruct (existsb (Nat.eqb i) l); auto. }
  destruct (L (seq 0 n) b c G) as [L1 L2].
  { apply Forall_forall. intros i Hi. apply in_seq in Hi. lia. }
  split; auto. eapply good_ext; [|exact L1]. intros j Hj. unfold over. destruct (c j); auto.
  replace (existsb (Nat.eqb j) (seq 0 n)) with true.
  - destruct (bit m j); auto.
  - symmetry. apply existsb_exists. exists j. split; [apply in_seq; lia|apply Nat.eqb_refl].
Qed.

(** what a batch says *)
Definition batch_says (m p : list bool) (vs : buffer) (i : nat) : option (option value) :=
  if bit m i then Some (if bit p i then nth i vs None else None) else None.
Definition batch_upto (l : list nat) (m p : list bool) (vs : buffer) (i : nat) : option (option value) :=
  if existsb (Nat.eqb i) l then batch_says m p vs i else None.
Lemma batch_upto_cons : forall i l m p vs c j, 
  over (over c (fun j => if j =? i then batch_says m p vs j else None)) (batch_upto l m p vs) j =
  over c (batch_upto (i :: l) m p vs) j.
Proof.
  intros i l m p vs c j. rewrite over_over. unfold over, batch_upto. destruct (c j); auto. cbn.
  destruct (j =? i); cbn; auto. destruct (batch_says m p vs j) eqn:E; auto.
  destruct (existsb (Nat.eqb j) l); auto.
Qed.
Lemma batch_upto_all : forall n m p vs j, j < n -> batch_upto (seq 0 n) m p vs j = batch_says m p vs j.
Proof.
  intros n m p vs j H. unfold batch_upto.
  replace (existsb (Nat.eqb j) (seq 0 n)) with true; auto.
  symmetry. apply existsb_exists. exists j. split; [apply in_seq; lia|apply Nat.eqb_refl].
Qed.

(** values are copied to the builder of the type *)
Lemma update_copy_ok : forall n k m p vs t l b c, good n b c -> b_type b = Some k -> b_typeidx b = t ->
  Forall (fun i => i < n) l ->
  (forall i, i < n -> bit m i = true -> bit p i = true -> exists v, nth i vs None = Some v /\ kind_of v = k) ->
  exists b', ofold (fun i b =>
      if bit m i && is_unset b i then
        let b := set_tidx b i (if bit p i then TIdx t else TRemoved) in
        if bit p i then add_from k vs i b else Some b
      else Some b) l b = Some b' /\
    good n b' (over c (batch_upto l m p vs)) /\ b_allocs b' = b_allocs b.
Proof.
  intros n k m p vs t l; induction l as [|i l IH]; intros b c G T TX F V.
  - exists b. split; auto. split; auto. eapply good_ext; [|exact G]. intros j _. unfold over. cbn.
    destruct (c j); auto.
  - inversion F as [|? ? F1 F2]; subst.
    assert (S1 : exists b1, (if bit m i && is_unset b i then
        let b0 := set_tidx b i (if bit p i then TIdx (b_typeidx b) else TRemoved) in
        if bit p i then add_from k vs i b0 else Some b0
      else Some b) = Some b1 /\ good n b1 (over c (fun j => if j =? i then batch_says m p vs j else None)) /\
      b_type b1 = Some k /\ b_typeidx b1 = b_typeidx b /\ b_allocs b1 = b_allocs b).
    { rewrite (is_unset_cell _ _ _ _ i (proj1 G) F1).
      destruct (bit m i) eqn:EM; cbn [andb].
      - destruct (c i) eqn:CI; cbv zeta.
        + exists b. split; auto. split; auto. eapply good_ext; [|exact G]. intros j _. unfold over.
          destruct (c j) eqn:CJ; auto. destruct (j =? i) eqn:EJ; auto. apply Nat.eqb_eq in EJ. congruence.
        + destruct (bit p i) eqn:EP.
          * destruct (V i F1 EM EP) as (v & NV & KV).
            destruct (put_value n b c k i v G T KV F1 CI) as (b2 & E2 & TX2 & T2 & (_ & _ & A2) & G2).
            unfold add_from. rewrite NV, buf_set_tidx, E2. cbn [option_map].
            eexists. split; [reflexivity|]. rewrite TX2 in G2. split; [|auto].
            eapply good_ext; [|exact G2]. intros j _. unfold cupd, over, batch_says.
            destruct (j =? i) eqn:EJ; [|destruct (c j); auto].
            apply Nat.eqb_eq in EJ. subst j. now rewrite CI, EM, EP, NV.
          * eexists. split; [reflexivity|]. split; [|auto].
            eapply good_ext; [|apply set_tidx_removed; eauto]. intros j _. unfold cupd, over, batch_says.
            destruct (j =? i) eqn:EJ; [|destruct (c j); auto].
            apply Nat.eqb_eq in EJ. subst j. now rewrite CI, EM, EP.
      - exists b. split; auto. split; auto. eapply good_ext; [|exact G]. intros j _. unfold over, batch_says.
        destruct (c j) eqn:CJ; auto. destruct (j =? i) eqn:EJ; auto. apply Nat.eqb_eq in EJ. subst. now rewrite EM. }
    destruct S1 as (b1 & E1 & G1 & T1 & TX1 & A1).
    destruct (IH b1 _ G1 T1 TX1 F2 V) as (b2 & E2 & G2 & A2).
    exists b2. rewrite ofold_cons. rewrite E1. cbn [obind]. split; auto. split; [|congruence].
    eapply good_ext; [|exact G2]. intros j _. apply batch_upto_cons.
Qed.
(** the buffer becomes the storage *)
Lemma update_buffer_ok : forall n k m p vs t l b c, core n None b c ->
  stor b k = Some (STyped k t (Buf vs)) ->
  Forall (fun i => i < n) l ->
  (forall i, i < n -> bit m i = true -> bit p i = true -> exists v, nth i vs None = Some v /\ kind_of v = k) ->
  exists b', ofold (fun i b =>
      if bit m i && is_unset b i then
        let b := set_tidx b i (if bit p i then TIdx t else TRemoved) in
        if bit p i then Some b else Some b
      else Some b) l b = Some b' /\
    core n None b' (over c (batch_upto l m p vs)) /\ b_allocs b' = b_allocs b /\
    b_state b' = b_state b /\ b_type b' = b_type b /\ b_first b' = b_first b /\
    b_map b' = b_map b /\ b_current b' = b_current b.
Proof.
  intros n k m p vs t l; induction l as [|i l IH]; intros b c C S F V.
  - exists b. split; auto. split; [|repeat split; auto]. eapply core_ext; [|exact C]. intros j _. unfold over. cbn.
    destruct (c j); auto.
  - inversion F as [|? ? F1 F2]; subst.
    assert (S1 : exists b1, (if bit m i && is_unset b i then
        let b0 := set_tidx b i (if bit p i then TIdx t else TRemoved) in
        if bit p i then Some b0 else Some b0
      else Some b) = Some b1 /\ core n None b1 (over c (fun j => if j =? i then batch_says m p vs j else None)) /\
      stor b1 k = stor b k /\ b_allocs b1 = b_allocs b /\
      b_state b1 = b_state b /\ b_type b1 = b_type b /\ b_first b1 = b_first b /\
      b_map b1 = b_map b /\ b_current b1 = b_current b).
    { rewrite (is_unset_cell _ _ _ _ i C F1).
      destruct (bit m i) eqn:EM; cbn [andb].
      - destruct (c i) eqn:CI; cbv zeta.
        + exists b. split; auto. split; [|repeat split; auto]. eapply core_ext; [|exact C]. intros j _. unfold over.
          destruct (c j) eqn:CJ; auto. destruct (j =? i) eqn:EJ; auto. apply Nat.eqb_eq in EJ. congruence.
        + destruct (bit p i) eqn:EP.
          * destruct (V i F1 EM EP) as (v & NV & KV).
            eexists. split; [reflexivity|]. split; [|repeat split; auto].
            eapply core_ext; [|apply (set_tidx_core n b c i (Some v) (TIdx t)); auto].
            -- intros j _. unfold cupd, over, batch_says.
               destruct (j =? i) eqn:EJ; [|destruct (c j); auto].
               apply Nat.eqb_eq in EJ. subst j. now rewrite CI, EM, EP, NV.
            -- exists t, (Buf vs). rewrite KV. auto.
          * eexists. split; [reflexivity|]. split; [|repeat split; auto].
            eapply core_ext; [|apply (set_tidx_core n b c i None TRemoved); auto].
            intros j _. unfold cupd, over, batch_says.
            destruct (j =? i) eqn:EJ; [|destruct (c j); auto].
            apply Nat.eqb_eq in EJ. subst j. now rewrite CI, EM, EP.
      - exists b. split; auto. split; [|repeat split; auto]. eapply core_ext; [|exact C]. intros j _. unfold over, batch_says.
        destruct (c j) eqn:CJ; auto. destruct (j =? i) eqn:EJ; auto. apply Nat.eqb_eq in EJ. subst. now rewrite EM. }
    destruct S1 as (b1 & E1 & C1 & S1 & A1 & X1 & X2 & X3 & X4 & X5).
    destruct (IH b1 _ C1 ltac:(congruence) F2 V) as (b2 & E2 & C2 & A2 & Y1 & Y2 & Y3 & Y4 & Y5).
    exists b2. rewrite ofold_cons. rewrite E1. cbn [obind]. split; auto.
    split; [|repeat split; congruence].
    eapply core_ext; [|exact C2]. intros j _. apply batch_upto_cons.
Qed.

Lemma below_all : forall n, Forall (fun i => i < n) (seq 0 n).
Proof. intros n. apply Forall_forall. intros i Hi. apply in_seq in Hi. lia. Qed.

Lemma unset_type_ok : forall n b c k, core n None b c -> ptr_ok b k ->
  exists b', unset_type b = Some b' /\ good n b' c /\ b_allocs b' = b_allocs b.
Proof.
  intros n b c k C [T P]. unfold unset_type. destruct C as [H1 H2 H3 H4 H5 H6 H7].
  destruct (b_state b) eqn:ES; [tauto| |].
  - destruct H7 as (F1 & F2 & F3). rewrite T. eexists. split; [reflexivity|]. split; auto.
    assert (SK : forall k', m_find (m_add (b_map b) k (b_first b)) k' = stor b k').
    { intros k'. rewrite F2. unfold stor. rewrite ES, T. cbn. destruct (kind_eq_dec k k'); auto. }
    split; [|intros k' Hk'; discriminate].
    constructor; cbn; auto.
    + intros k' X. unfold stor; cbn. rewrite SK. auto.
    + intros k' s X. unfold stor; cbn. rewrite SK. auto.
    + intros i Hi. specialize (H6 i Hi). destruct (c i) as [[v|]|]; auto.
      unfold stor; cbn. rewrite SK. auto.
    + rewrite F2. cbn. constructor; [tauto|constructor].
  - eexists. split; [reflexivity|]. split; auto.
    assert (SK : forall k', m_find (b_map b) k' = stor b k').
    { intros k'. unfold stor. now rewrite ES. }
    split; [|intros k' Hk'; discriminate].
    constructor; cbn; auto.
    + intros k' X. unfold stor; cbn. rewrite SK. auto.
    + intros k' s X. unfold stor; cbn. rewrite SK. auto.
    + intros i Hi. specialize (H6 i Hi). destruct (c i) as [[v|]|]; auto.
      unfold stor; cbn. rewrite SK. auto.
Qed.

Lemma insert_existing_ok : forall n b c k m p vs, core n None b c -> ptr_ok b k -> In k (b_types b) ->
  (forall i, i < n -> bit m i = true -> bit p i = true -> exists v, nth i vs None = Some v /\ kind_of v = k) ->
  exists b', insert_existing k m p vs b = Some b' /\ good n b' (over c (batch_says m p vs)) /\
    b_allocs b' = b_allocs b.
Proof.
  intros n b c k m p vs C P I V. unfold insert_existing.
  destruct (from_current_ok n b c k C P I) as (b1 & E1 & G1 & T1 & (_ & _ & A1) & _).
  rewrite E1. cbn [obind]. unfold update_types.
  assert (SZ : b_size b1 = n) by apply G1. rewrite SZ.
  destruct (update_copy_ok n k m p vs (b_typeidx b1) (seq 0 n) b1 c G1 T1 eq_refl (below_all n) V)
    as (b2 & E2 & G2 & A2).
  exists b2. split; [exact E2|]. split; [|congruence].
  eapply good_ext; [|exact G2]. intros j Hj. unfold over. now rewrite batch_upto_all.
Qed.

Lemma insert_batch_ok : forall n b c k m p vs, good n b c -> length vs = n ->
  (forall i, i < n -> bit m i = true -> bit p i = true -> exists v, nth i vs None = Some v /\ kind_of v = k) ->
  exists b', insert_batch k m p vs b = Some b' /\ good n b' (over c (batch_says m p vs)) /\
    b_allocs b' = b_allocs b.
Proof.
  intros n b c k m p vs G LV V. unfold insert_batch.
  assert (SZ : b_size b = n) by apply G. rewrite SZ, LV, Nat.eqb_refl. cbn [negb].
  destruct (match b_type b with Some k' => if kind_eq_dec k' k then true else false | None => false end) eqn:ES.
  - assert (T : b_type b = Some k).
    { destruct (b_type b) as [k'|]; [|discriminate]. destruct (kind_eq_dec k' k); congruence. }
    destruct G as [C A]. destruct (A k T) as (P & buf & S).
    apply insert_existing_ok; auto. apply (co_keys _ _ _ _ C k); [discriminate|congruence].
  - assert (T : b_type b <> Some k).
    { intros X. rewrite X in ES. destruct (kind_eq_dec k k); congruence. }
    destruct (change_type_ok n b c k G T) as (b1 & E & P & SC & TY & K1 & K2). rewrite E. cbn [obind].
    rewrite (deref_stor b1 k P). destruct SC as (SC1 & SC2 & SC3).
    destruct (in_dec kind_eq_dec k (b_types b)) as [I|I].
    + assert (I1 : In k (b_types b1)) by congruence. specialize (K1 I).
      destruct (insert_existing_ok n b1 c k m p vs K1 P I1 V) as (b2 & E2 & G2 & A2).
      destruct (stor b1 k) as [s|] eqn:ES1.
      2:{ exfalso. apply (co_keys _ _ _ _ K1 k) in I1; [congruence|discriminate]. }
      destruct (co_stor _ _ _ _ K1 k s ltac:(discriminate) ES1) as (ti & d & -> & TI & LD).
      exists b2. split; auto. split; auto. congruence.
    + destruct (K2 I) as (C1 & S1). rewrite S1.
      destruct (new_storage_ok n b1 c k (Buf vs) C1 P ltac:(congruence) LV)
        as (b2 & E2 & C2 & P2 & (SD1 & SD2 & SD3) & TY2 & TX2 & S2).
      rewrite E2. cbn [obind].
      assert (SZ2 : b_size (add_type b2 k) = n) by apply C2.
      destruct (update_buffer_ok n k m p vs (length (b_types b1)) (seq 0 n) (add_type b2 k) c C2 S2 (below_all n) V)
        as (b3 & E3 & C3 & A3 & Y1 & Y2 & Y3 & Y4 & Y5).
      assert (E3' : update_types (length (b_types b1)) m p (fun _ b => Some b) (add_type b2 k) = Some b3)
        by (unfold update_types; rewrite SZ2; exact E3).
      rewrite E3'. cbn [obind].
      destruct (unset_type_ok n b3 _ k C3) as (b4 & E4 & G4 & A4).
      { unfold ptr_ok in *. rewrite Y1, Y2, Y4, Y5. exact P2. }
      exists b4. split; auto. split.
      * eapply good_ext; [|exact G4]. intros j Hj. unfold over. now rewrite batch_upto_all.
      * rewrite A4, A3. cbn. congruence.
Qed.

(** ** Histories *)
Definition allocs_step (before : list bop) (op : bop) (a : allocs) : allocs :=
  match op with
  | OInsertAlloc i x | OInsertNewAlloc i x =>
      match content before i with None => al_item x a | Some _ => a end
  | OAllocs a' => al_union a a'
  | _ => a
  end.
Fixpoint allocs_after (before ops : list bop) (a : allocs) : allocs :=
  match ops with
  | [] => a
  | op :: r => allocs_after (before ++ [op]) r (allocs_step before op a)
  end.
Lemma content_app : forall l1 l2 i, content (l1 ++ l2) i = over (content l1) (content l2) i.
Proof.
  intros l1 l2 i. unfold over. induction l1 as [|op l1 IH]; cbn; auto. destruct (says op i); auto.
Qed.
Lemma step_ok : forall n before op b, good n b (content before) -> op_ok n before op ->
  exists b', step op b = Some b' /\ good n b' (content (before ++ [op])) /\
    b_allocs b' = allocs_step before op (b_allocs b).
Proof.
  intros n before op b G OK.
  assert (EXT : forall b', good n b' (over (content before) (says op)) -> good n b' (content (before ++ [op]))).
  { intros b' H. eapply good_ext; [|exact H]. intros j _. rewrite content_app. unfold over. cbn.
    destruct (content before j); auto. destruct (says op j); auto. }
  destruct op as [m|i x|i x|i x|i x|k ws|k m p vs|a]; cbn [step allocs_step].
  - destruct (apply_mask_ok n b _ m G) as [G' A']. eexists. split; [reflexivity|]. split; auto.
  - destruct (insert_ok n b _ i x G OK) as (b' & E & G' & A). exists b'. split; auto.
  - destruct OK as [O1 O2]. destruct (insert_new_ok n b _ i x G O1 O2) as (b' & E & G' & A).
    exists b'. split; auto. split; auto. apply EXT. eapply good_ext; [|exact G']. intros j _. now apply over_at.
  - destruct (insert_alloc_ok n b _ i x G OK) as (b' & E & G' & A). exists b'. split; auto.
  - destruct OK as [O1 O2]. destruct (insert_new_alloc_ok n b _ i x G O1 O2) as (b' & E & G' & A).
    exists b'. split; auto. split; auto. now rewrite O2.
  - cbn in OK. unfold typed. destruct (get_builder_ok n b _ k G) as (b1 & E1 & G1 & T1 & (_ & _ & A1)).
    rewrite E1. cbn [obind].
    destruct (typed_loop_ok n k ws b1 _ G1 T1 OK) as (b2 & E2 & G2 & A2).
    exists b2. split; auto. split; [|congruence]. apply EXT. exact G2.
  - destruct OK as (O1 & _ & _ & O4). destruct (insert_batch_ok n b _ k m p vs G O1 O4) as (b' & E & G' & A).
    exists b'. split; auto.
  - eexists. split; [reflexivity|]. split; [|reflexivity]. apply EXT. apply good_allocs.
    eapply good_ext; [|exact G]. intros j _. unfold over. cbn. destruct (content before j); auto.
Qed.
Lemma new_builder_good : forall n a, good n (new_builder n a) (content []).
Proof.
  intros n a. split; [|intros k H; discriminate]. constructor; cbn; auto.
  - apply repeat_length.
  - unfold unsets. induction n; cbn; congruence.
  - constructor.
  - intros k _. unfold stor; cbn. tauto.
  - intros k s _ H. discriminate.
  - intros i Hi. apply nth_repeat.
Qed.
Lemma run_from : forall n ops before b, good n b (content before) -> ops_ok n before ops ->
  exists b', run ops b = Some b' /\ good n b' (content (before ++ ops)) /\
    b_allocs b' = allocs_after before ops (b_allocs b).
Proof.
  intros n ops; induction ops as [|op ops IH]; intros before b G OK.
  - exists b. rewrite app_nil_r. auto.
  - destruct OK as [O1 O2]. destruct (step_ok n before op b G O1) as (b1 & E1 & G1 & A1).
    destruct (IH _ b1 G1 O2) as (b2 & E2 & G2 & A2). exists b2. unfold run in *.
    rewrite ofold_cons, E1. cbn [obind]. split; auto. rewrite <- app_assoc in G2. split; auto.
    cbn. congruence.
Qed.
Lemma run_ok : forall n a ops, ops_ok n [] ops ->
  exists b, run ops (new_builder n a) = Some b /\ good n b (content ops) /\
    b_allocs b = allocs_after [] ops a.
Proof.
  intros n a ops OK. destruct (run_from n ops [] (new_builder n a) (new_builder_good n a) OK)
    as (b & E & G & A). exists b. auto.
Qed.
