(** C52: group_by puts the items with the same keys together, and unique keeps each value
    once, in every row. *)
From Coq Require Import List Bool Arith Lia Permutation Sorted.
From Verif Require Import SliceOpsModel GroupModel GroupSpec GroupKeysProofs GroupProofs.
Import ListNotations.

(** [key_ok], [usable] and [columns] (GroupKeysProofs): a slice of the shape with as many
    items as the last dimension [e] says (all missing if the dtype is unknown); its dtype can
    be sorted if sorting is asked for; the columns of row [r] are the r-th parts of the keys.
    The indices are returned with the edges of the groups in the rows and of the items in the
    groups, and each row has exactly the groups of the specification. [P] says which values
    the order is total on: with sorting, no key may be NaN. *)
Theorem C52_group_by : forall T eqb ltb P sort shape e (ks : list (key_slice T)),
  partial_equivalence T eqb -> ks <> [] ->
  (forall k, In k ks -> key_ok T (shape ++ [e]) e k /\ usable T sort k) ->
  (sort = true -> total_order_on T eqb ltb P /\ (forall k v, In k ks -> In (Some v) (k_items k) -> P v)) ->
  exists gss : list (list (list nat)),
    group_by_indices T eqb ltb sort ks
      = GOk (shape, split_points (map (@length _) gss), split_points (map (@length _) (concat gss)), map Some (concat (concat gss))) /\
    length gss = length e /\
    forall r n gs, nth_error e r = Some n -> nth_error gss r = Some gs -> row_groups T eqb ltb sort (columns T e ks r) n gs.
Proof. exact group_by_ok. Qed.

(** What is refused: no keys, items, different shapes, and sorting of what has no order *)
Theorem C52_group_by_refused : forall T eqb ltb sort (ks : list (key_slice T)),
  (exists er, group_by_indices T eqb ltb sort ks = GErr er) <->
  match ks with
  | [] => True
  | k :: _ => k_shape k = [] \/ exists k', In k' ks /\ (k_shape k' <> k_shape k \/ ~ usable T sort k')
  end.
Proof. exact group_by_refused. Qed.

(** The values of each row, each once; NaN counts as one value unless the slice is mixed *)
Theorem C52_unique : forall T eqb ltb is_nan sort shape e (x : key_slice T),
  partial_equivalence T eqb -> (forall a b, is_nan a = true -> eqb a b = false) ->
  key_ok T (shape ++ [e]) e x -> usable T sort x ->
  (sort = true -> total_order_on T eqb ltb (fun v => is_nan v = false)) ->
  exists us, unique T eqb ltb is_nan sort x = UOk shape (split_points (map (@length _) us)) (concat us) /\
    Forall2 (row_unique T eqb ltb (nan_in T is_nan (k_dtype x)) sort) (chunks e (k_items x)) us.
Proof. exact unique_ok. Qed.
Theorem C52_unique_refused : forall T eqb ltb is_nan sort (x : key_slice T),
  ((exists er, unique T eqb ltb is_nan sort x = UErr er) <-> k_shape x <> [] /\ ~ usable T sort x) /\
  (unique T eqb ltb is_nan sort x = UItem <-> k_shape x = []).
Proof. intros. split; [apply unique_refused | symmetry; apply unique_item]. Qed.

(** Numbers, 0 being NaN *)
Definition num_eqb (a b : nat) : bool := (a =? b) && negb (a =? 0).
Definition num_ltb (a b : nat) : bool := (a <? b) && negb (a =? 0) && negb (b =? 0).
Definition num_nan (a : nat) : bool := a =? 0.

(** In a mixed slice two NaNs stay two, unlike in a slice of floats *)
Theorem C52_unique_mixed_nan_refuted : exists (x : key_slice nat) e us,
  key_ok nat ([] ++ [e]) e x /\ k_dtype x = Mixed /\
  unique nat num_eqb num_ltb num_nan false x = UOk [] (split_points (map (@length _) us)) (concat us) /\
  ~ Forall2 (row_unique nat num_eqb num_ltb (fun v => num_nan v = true) false) (chunks e (k_items x)) us /\
  exists us', unique nat num_eqb num_ltb num_nan false (mkKey (k_shape x) (Single true) (k_items x))
    = UOk [] (split_points (map (@length _) us')) (concat us') /\
    Forall2 (row_unique nat num_eqb num_ltb (fun v => num_nan v = true) false) (chunks e (k_items x)) us'.
Proof.
  exists (mkKey [[2]] Mixed [Some 0; Some 0]), [2], [[0; 0]].
  split; [split; [reflexivity | reflexivity | discriminate] |]. split; [reflexivity |]. split; [reflexivity |]. split.
  - intros F. cbn in F. inversion F as [| ? ? ? ? H _]; subst. destruct H as [ps [A [B C]]].
    inversion C as [| i ? ps1 ? Ci C1]; subst. inversion C1 as [| j ? ps2 ? Cj C2]; subst.
    inversion A as [| ? ? A1 A2]; subst. inversion A2 as [| ? ? L _]; subst.
    assert (Ij : In j (i :: j :: ps2)) by (right; left; reflexivity).
    apply B in Ij. destruct Ij as [v [V H]]. assert (Ev : Some (Some v) = Some (Some 0)) by (rewrite <- V; exact Cj). assert (v = 0) by congruence. subst v.
    apply (H i 0 L Ci). right. split; reflexivity.
  - exists [[0]]. split; [reflexivity |]. constructor; [| constructor]. exists [0].
    split; [repeat constructor |]. split; [| repeat constructor]. intros i. split.
    + intros [<- | []]. exists 0. split; [reflexivity |]. intros; lia.
    + intros [v [V H]]. destruct i as [| i]; [left; reflexivity | exfalso].
      destruct i as [| i]; [| destruct i; discriminate]. cbn in V.
      apply (H 0 0 ltac:(lia) eq_refl). right. split; [reflexivity |]. assert (v = 0) by congruence. subst. reflexivity.
Qed.

Lemma num_pe : partial_equivalence nat num_eqb.
Proof.
  unfold partial_equivalence, num_eqb. split.
  - intros a b. rewrite !andb_true_iff, !negb_true_iff, !Nat.eqb_eq, !Nat.eqb_neq. lia.
  - intros a b c. rewrite !andb_true_iff, !negb_true_iff, !Nat.eqb_eq, !Nat.eqb_neq. lia.
Qed.
Lemma num_to : total_order_on nat num_eqb num_ltb (fun v => num_nan v = false).
Proof.
  unfold total_order_on, num_eqb, num_ltb, num_nan.
  assert (E : forall a b, a <> 0 -> (a =? b) && negb (a =? 0) = (a =? b)).
  { intros a b N. destruct (Nat.eqb_spec a 0); [contradiction | apply andb_true_r]. }
  assert (L : forall a b, a <> 0 -> b <> 0 -> (a <? b) && negb (a =? 0) && negb (b =? 0) = (a <? b)).
  { intros a b N M. destruct (Nat.eqb_spec a 0); [contradiction |]. destruct (Nat.eqb_spec b 0); [contradiction |].
    rewrite !andb_true_r. reflexivity. }
  split; [| split; [| split]].
  - intros a. rewrite Nat.eqb_neq. intros N. rewrite (E a a N). apply Nat.eqb_refl.
  - intros a b c. rewrite !Nat.eqb_neq. intros Na Nb Nc. rewrite !L by assumption. rewrite !Nat.ltb_lt. lia.
  - intros a b. rewrite !Nat.eqb_neq. intros Na Nb. rewrite !L, !E by assumption. rewrite Nat.ltb_lt, Nat.eqb_neq, Nat.ltb_ge. lia.
  - intros a b. rewrite !Nat.eqb_neq. intros Na Nb. rewrite !L, !E by assumption. rewrite Nat.eqb_eq, !Nat.ltb_lt. lia.
Qed.

Definition k1 : key_slice nat := mkKey [[2]; [4; 3]] (Single true) [Some 7; Some 5; Some 7; None; Some 2; Some 2; Some 1].
Definition k2 : key_slice nat := mkKey [[2]; [4; 3]] (Single true) [Some 3; Some 3; Some 3; Some 4; Some 9; Some 8; Some 9].
Definition k3 : key_slice nat := mkKey [[2]; [4; 3]] Mixed [Some 0; Some 5; Some 0; None; Some 2; Some 2; Some 1].

(** Two rows, two keys, with and without sorting, and keys with NaN *)
Example C52_hypotheses_met :
  partial_equivalence nat num_eqb /\
  total_order_on nat num_eqb num_ltb (fun v => num_nan v = false) /\
  (forall k, In k [k1; k2] -> key_ok nat ([[2]] ++ [[4; 3]]) [4; 3] k /\ usable nat true k) /\
  (forall k v, In k [k1; k2] -> In (Some v) (k_items k) -> num_nan v = false) /\
  group_by_indices nat num_eqb num_ltb false [k1; k2]
    = GOk ([[2]], [0; 2; 5], [0; 2; 3; 4; 5; 6], map Some [0; 2; 1; 0; 1; 2]) /\
  group_by_indices nat num_eqb num_ltb true [k1; k2]
    = GOk ([[2]], [0; 2; 5], [0; 1; 3; 4; 5; 6], map Some [1; 0; 2; 2; 1; 0]) /\
  group_by_indices nat num_eqb num_ltb false [k3]
    = GOk ([[2]], [0; 3; 5], [0; 1; 2; 3; 5; 6], map Some [0; 1; 2; 0; 1; 2]) /\
  group_by_indices nat num_eqb num_ltb true [k3] = GErr EMixedSort /\
  unique nat num_eqb num_ltb num_nan true k1 = UOk [[2]] [0; 2; 4] [5; 7; 1; 2] /\
  unique nat num_eqb num_ltb num_nan false k1 = UOk [[2]] [0; 2; 4] [7; 5; 2; 1].
Proof.
  split; [exact num_pe |]. split; [exact num_to |]. split.
  { intros k [<- | [<- | []]]; (split; [split; [reflexivity | reflexivity | discriminate] | intros _; reflexivity]). }
  split.
  { intros k v [<- | [<- | []]]; cbn; intros I; repeat (destruct I as [I | I]; [try discriminate; injection I as <-; reflexivity |]); destruct I. }
  repeat split; reflexivity.
Qed.

Print Assumptions C52_group_by.
Print Assumptions C52_group_by_refused.
Print Assumptions C52_unique.
Print Assumptions C52_unique_refused.
Print Assumptions C52_unique_mixed_nan_refuted.
