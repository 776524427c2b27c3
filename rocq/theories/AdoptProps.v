(** C61: adopting gives the union of what was added. *)
From Coq Require Import List Bool Arith Lia.
From Verif Require Import AdoptModel AdoptSpec AdoptProofs.
Import ListNotations.

Section Properties.
Variables (key val bag slice error : Type).
Variable key_eqb : key -> key -> bool.
Variable val_eqb : val -> val -> bool.
Variable bag_eqb : bag -> bag -> bool.
Hypothesis key_ok : forall a b, key_eqb a b = true <-> a = b.
Hypothesis val_ok : forall a b, val_eqb a b = true <-> a = b.
Hypothesis bag_ok : forall a b, bag_eqb a b = true <-> a = b.
Variable contents_of : bag -> contents key val.
Variable is_mutable : bag -> bool.
Variable bag_of : slice -> option bag.
Variable extract : slice -> option (contents key val) + error.
(** A bag has one value for a key, and what is extracted is a part of the bag of the slice *)
Hypothesis contents_wf : forall b, NoDup (map fst (contents_of b)).
Hypothesis extract_wf : forall s c, extract s = inl (Some c) -> NoDup (map fst c).
Hypothesis extract_part : forall s b c, bag_of s = Some b -> extract s = inl (Some c) ->
  forall k v, lookup key_eqb c k = Some v -> lookup key_eqb (contents_of b) k = Some v.
Notation lookup := (lookup key_eqb).
Notation adopt_into := (adopt_into key_eqb val_eqb bag_eqb contents_of bag_of extract).
Notation get_common_or_merged_db := (get_common_or_merged_db key_eqb val_eqb bag_eqb contents_of bag_of extract).
Notation adoptable := (adoptable key_eqb contents_of bag_of extract).
Notation union := (union key_eqb contents_of bag_of extract).
Notation wanted := (wanted key_eqb contents_of bag_of extract).
Notation queue_of := (queue_of bag_of).
Notation tracked := (tracked bag_of).

(** Adopting into a bag succeeds if no two parts disagree and all is extracted, and only then; the bag
    is then the union of what it was, the added bags, and what the slices of other bags reach *)
Theorem C61_adopts : forall adds b,
  (snd (adopt_into (queue_of adds) b) = None <-> adoptable (Some b) adds) /\
  (snd (adopt_into (queue_of adds) b) = None -> union (Some b) adds (fst (adopt_into (queue_of adds) b))).
Proof.
  intros adds b. exact (adopt_spec key val bag slice error key_eqb val_eqb bag_eqb key_ok val_ok bag_ok contents_of is_mutable bag_of extract
    contents_wf extract_wf (Some b) adds).
Qed.

(** All that was asked for is then in the bag *)
Theorem C61_wanted : forall adds b, snd (adopt_into (queue_of adds) b) = None ->
  forall k v, wanted adds k v -> lookup (fst (adopt_into (queue_of adds) b)) k = Some v.
Proof.
  intros adds b H k v. exact (wanted_in key val bag slice error key_eqb bag_eqb bag_ok contents_of is_mutable bag_of extract extract_part (Some b) adds
    _ k v (proj2 (C61_adopts adds b) H)).
Qed.

(** Neither the order of the calls of Add matters nor how often the same is added *)
Theorem C61_order : forall adds adds' b, (forall a, In a adds <-> In a adds') ->
  (snd (adopt_into (queue_of adds) b) = None <-> snd (adopt_into (queue_of adds') b) = None) /\
  (snd (adopt_into (queue_of adds) b) = None ->
   forall k, lookup (fst (adopt_into (queue_of adds) b)) k = lookup (fst (adopt_into (queue_of adds') b)) k).
Proof.
  intros adds adds' b. exact (order_spec key val bag slice error key_eqb val_eqb bag_eqb key_ok val_ok bag_ok contents_of is_mutable bag_of extract
    contents_wf extract_wf (Some b) adds adds').
Qed.

(** What the bag had it keeps, also if adopting fails *)
Theorem C61_keeps : forall adds b k v, lookup (contents_of b) k = Some v ->
  lookup (fst (adopt_into (queue_of adds) b)) k = Some v.
Proof.
  intros adds b k v. exact (adopt_keeps key val bag slice error key_eqb val_eqb bag_eqb bag_ok contents_of is_mutable bag_of extract (contents_of b) [b] (queue_of adds) k v).
Qed.

(** The common bag: none if nothing has a bag, the one bag if there is one, otherwise a new bag with the
    union, or an error if the parts disagree *)
Theorem C61_common : forall adds,
  match get_common_or_merged_db (queue_of adds) with
  | No_bag => forall b, ~ tracked adds b
  | The_bag b => tracked adds b /\ forall b', tracked adds b' -> b' = b
  | New_bag c => (exists b1 b2, tracked adds b1 /\ tracked adds b2 /\ b1 <> b2) /\ adoptable None adds /\ union None adds c
  | Fails _ => (exists b1 b2, tracked adds b1 /\ tracked adds b2 /\ b1 <> b2) /\ ~ adoptable None adds
  end.
Proof.
  exact (common_spec key val bag slice error key_eqb val_eqb bag_eqb key_ok val_ok bag_ok contents_of is_mutable bag_of extract contents_wf extract_wf).
Qed.

(** All that was asked for is in the common bag *)
Theorem C61_common_wanted : forall adds k v, wanted adds k v ->
  match get_common_or_merged_db (queue_of adds) with
  | No_bag => False
  | The_bag b => lookup (contents_of b) k = Some v
  | New_bag c => lookup c k = Some v
  | Fails _ => True
  end.
Proof.
  exact (common_wanted key val bag slice error key_eqb val_eqb bag_eqb key_ok val_ok bag_ok contents_of is_mutable bag_of extract contents_wf extract_wf extract_part).
Qed.

(** The bag with fallbacks reads from the first bag that has the key: the added bags, then those of the slices *)
Theorem C61_fallbacks : forall adds k v,
  with_fallbacks key_eqb (get_bag_with_fallbacks bag_eqb contents_of bag_of (queue_of adds)) k = Some v <->
  exists b, first_with key_eqb contents_of (bags_added adds ++ bags_of_slices bag_of adds) k b /\ lookup (contents_of b) k = Some v.
Proof.
  exact (fallbacks_spec key val bag slice key_eqb bag_eqb bag_ok contents_of bag_of).
Qed.

(** Adopting a slice over a bag: what the slice reaches is read first, then the bag; a mutable bag is an error *)
Theorem C61_over : forall b s,
  match with_adopted_values bag_eqb contents_of is_mutable bag_of extract b s with
  | inl None => b = None /\ bag_of s = None
  | inl (Some layers) =>
      (forall d, b = Some d -> is_mutable d = false) /\
      (forall x k v, bag_of s <> None -> extract s = inl (Some x) -> lookup x k = Some v -> with_fallbacks key_eqb layers k = Some v) /\
      (forall d k v, b = Some d -> lookup (contents_of d) k = Some v ->
         (forall x, bag_of s <> None -> extract s = inl (Some x) -> lookup x k = None) -> with_fallbacks key_eqb layers k = Some v) /\
      (forall k v, with_fallbacks key_eqb layers k = Some v -> exists d, (b = Some d \/ bag_of s = Some d) /\ lookup (contents_of d) k = Some v)
  | inr Mutable => exists d, b = Some d /\ is_mutable d = true
  | inr (Failed e) => extract s = inr e
  | inr Conflict => False
  end.
Proof.
  exact (with_adopted_spec key val bag slice error key_eqb bag_eqb bag_ok contents_of is_mutable bag_of extract extract_part).
Qed.
End Properties.

(** Bags 1, 2 and 3, where 2 and 3 disagree on key 12; a slice (b, k) has bag b and reaches key k *)
Definition ex_contents (b : nat) : contents nat nat :=
  match b with
  | 1 => [(10, 100)]
  | 2 => [(11, 101); (12, 102)]
  | 3 => [(13, 103); (12, 999)]
  | _ => []
  end.
Definition ex_bag (s : nat * nat) : option nat := match fst s with 0 => None | b => Some b end.
Definition ex_extract (s : nat * nat) : option (contents nat nat) + unit :=
  match fst s with
  | 0 => inl None
  | b => inl (Some (filter (fun e => Nat.eqb (fst e) (snd s)) (ex_contents b)))
  end.
Notation ex_into := (adopt_into Nat.eqb Nat.eqb Nat.eqb ex_contents ex_bag ex_extract).
Notation ex_common := (get_common_or_merged_db Nat.eqb Nat.eqb Nat.eqb ex_contents ex_bag ex_extract).
Notation ex_queue := (queue_of ex_bag).
Example C61_hypotheses_met :
  (forall b, NoDup (map fst (ex_contents b))) /\
  (forall s c, ex_extract s = inl (Some c) -> NoDup (map fst c)) /\
  (forall s b c, ex_bag s = Some b -> ex_extract s = inl (Some c) ->
     forall k v, lookup Nat.eqb c k = Some v -> lookup Nat.eqb (ex_contents b) k = Some v) /\
  ex_into (ex_queue [Add_bag (Some 2); Add_slice (3, 13); Add_slice (0, 5); Add_slice (2, 12); Add_bag None]) 1
    = ([(10, 100); (11, 101); (12, 102); (13, 103)], None) /\
  ex_into (ex_queue [Add_bag (Some 2); Add_slice (3, 12)]) 1 = ([(10, 100); (11, 101); (12, 102)], Some Conflict) /\
  ex_common (ex_queue [Add_slice (0, 5)]) = No_bag /\
  ex_common (ex_queue [Add_slice (2, 11); Add_bag (Some 2)]) = The_bag 2 /\
  ex_common (ex_queue [Add_slice (2, 12); Add_slice (1, 10)]) = New_bag [(12, 102); (10, 100)] /\
  ex_common (ex_queue [Add_slice (2, 12); Add_slice (3, 12)]) = Fails Conflict /\
  with_fallbacks Nat.eqb (get_bag_with_fallbacks Nat.eqb ex_contents ex_bag (ex_queue [Add_slice (2, 11); Add_bag (Some 3)])) 12 = Some 999 /\
  with_adopted_values Nat.eqb ex_contents (fun b => Nat.eqb b 1) ex_bag ex_extract (Some 3) (2, 12) = inl (Some [[(12, 102)]; [(13, 103); (12, 999)]]) /\
  with_adopted_values Nat.eqb ex_contents (fun b => Nat.eqb b 1) ex_bag ex_extract (Some 1) (2, 12) = inr Mutable.
Proof.
  assert (W : forall b, NoDup (map fst (ex_contents b))).
  { intros [|[|[|[|b]]]]; cbn; repeat constructor; cbn; intuition discriminate. }
  split; [exact W|]. split; [|split; [|vm_compute; repeat split; reflexivity]].
  - intros [b k] c. unfold ex_extract. cbn [fst snd]. destruct b as [|b]; [discriminate|]. intros H. assert (Q : c = filter (fun e => Nat.eqb (fst e) k) (ex_contents (S b))) by congruence. clear H. subst c.
    generalize (W (S b)). generalize (ex_contents (S b)). intros l0. induction l0 as [|[k' v] l IH]; intros N; cbn; [constructor|].
    inversion N as [|? ? N1 N2]; subst. destruct (Nat.eqb k' k); cbn; [|now apply IH]. constructor; [|now apply IH].
    intros H. apply N1. apply in_map_iff in H. destruct H as (x & X & Y). apply filter_In in Y. apply in_map_iff. exists x. tauto.
  - intros [b' k'] b c. unfold ex_extract, ex_bag. cbn [fst snd]. destruct b' as [|b']; [discriminate|]. intros H H'. assert (Q : c = filter (fun e => Nat.eqb (fst e) k') (ex_contents (S b'))) by congruence. assert (Q' : b = S b') by congruence. clear H H'. subst c b. intros k v.
    generalize (ex_contents (S b')). intros l0. induction l0 as [|[j w] l IH]; cbn; [discriminate|].
    destruct (Nat.eqb j k') eqn:Q; cbn; destruct (Nat.eqb j k) eqn:R; auto.
    intros H. exfalso. apply Nat.eqb_neq in Q. apply Nat.eqb_eq in R. subst k.
    clear IH. revert H. induction l as [|[i u] l IHl]; cbn; [discriminate|].
    destruct (Nat.eqb i k') eqn:Q'; cbn; [|exact IHl]. destruct (Nat.eqb i j) eqn:R'; [|exact IHl].
    apply Nat.eqb_eq in Q', R'. congruence.
Qed.

Print Assumptions C61_adopts.
Print Assumptions C61_wanted.
Print Assumptions C61_order.
Print Assumptions C61_keeps.
Print Assumptions C61_common.
Print Assumptions C61_common_wanted.
Print Assumptions C61_fallbacks.
Print Assumptions C61_over.
Print Assumptions C61_hypotheses_met.
