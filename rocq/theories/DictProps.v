(** C12: a layered dict is one finite map. *)
From Coq Require Import NArith ZArith List Bool Permutation Sorted.
From Verif Require Import ObjectIdModel SchemaModel ItemModel DictModel DictSpec DictProofs.
Import ListNotations.

Section C12.
(** the order in which a hash map yields its entries is unknown *)
Variable iter : dmap -> dmap.
Hypothesis any_order : forall m, Permutation (iter m) m.

(** a dict with a history of writes, clears and new layers *)
Definition dict_of (h : N * list dict_op) : dict := dict_run iter (snd h) (new_dict (fst h)).
Definition map_of (h : N * list dict_op) : fmap := f_run (snd h) f_empty.

Lemma dict_of_means h : means (dict_of h) (map_of h).
Proof. apply dict_run_means; [exact any_order | apply new_means]. Qed.
Lemma dicts_of_means hs : Forall dict_ok (map dict_of hs) /\ forall k, f_first (map d_get (map dict_of hs)) k = f_first (map map_of hs) k.
Proof.
  induction hs as [|h hs [IH1 IH2]]; cbn; [auto|]. destruct (dict_of_means h) as [W G]. split; [auto|].
  intros k. rewrite G, IH2. reflexivity.
Qed.

(** Reading a key gives what the last operation left there. *)
Theorem C12_get h k : d_get (dict_of h) k = map_of h k.
Proof. exact (proj2 (dict_of_means h) k). Qed.

(** Keys are listed once each, with the value of their key at the same place; they
    are the keys of this dict and of all its fallbacks, and the value comes from the
    first of them that knows the key. *)
Theorem C12_items h fallbacks :
  length (d_keys iter (dict_of h) (map dict_of fallbacks)) = length (d_values iter (dict_of h) (map dict_of fallbacks)) /\
  lists_map (combine (d_keys iter (dict_of h) (map dict_of fallbacks)) (d_values iter (dict_of h) (map dict_of fallbacks)))
            (f_first (map map_of (h :: fallbacks))).
Proof.
  destruct (dicts_of_means (h :: fallbacks)) as [W E]. split; [unfold d_keys, d_values; now rewrite !map_length|].
  rewrite combine_items. destruct (d_items_lists iter any_order _ W) as [N L]. split; [exact N|].
  intros k v. rewrite <- E. exact (L k v).
Qed.

(** The size is the number of keys listed. *)
Theorem C12_size h : d_size iter (dict_of h) = length (d_keys iter (dict_of h) []).
Proof. exact (size_ok iter any_order _ (proj1 (dict_of_means h))). Qed.

(** Listing only keys with a value drops exactly those whose value is missing. *)
Theorem C12_present_keys h fallbacks :
  NoDup (d_keys_with_values iter (dict_of h) (map dict_of fallbacks)) /\
  forall k, In k (d_keys_with_values iter (dict_of h) (map dict_of fallbacks)) <->
            exists v, f_first (map map_of (h :: fallbacks)) k = Some (Some v).
Proof.
  destruct (dicts_of_means (h :: fallbacks)) as [W E]. inversion W as [|? ? W1 W2]; subst.
  destruct (keys_with_values_ok iter any_order _ _ W1 W2) as [N L]. split; [exact N|].
  intros k. rewrite (L k). change (dict_of h :: map dict_of fallbacks) with (map dict_of (h :: fallbacks)). now rewrite E.
Qed.

(** Get-or-assign returns what is there, else the value given. *)
Theorem C12_get_or_assign h key v :
  fst (d_get_or_assign (dict_of h) key v) =
  match good_key key with
  | None => None
  | Some k => match map_of h k with Some w => w | None => v end
  end.
Proof. exact (get_or_assign_result _ _ key v (dict_of_means h)). Qed.

(** Sorted keys are the keys in order; sorted values are the values of those keys. *)
Theorem C12_sorted (less : value -> value -> bool) sort_keys sort_idx h fallbacks :
  (forall a b, a <> b -> less a b = true \/ less b a = true) ->
  (forall l, Permutation (sort_keys l) l /\ StronglySorted (fun a b => less b a = false) (sort_keys l)) ->
  (forall l, Permutation (sort_idx l) (seq 0 (length l)) /\
     StronglySorted (fun i j => match nth_error l i, nth_error l j with
                                | Some a, Some b => less b a = false
                                | _, _ => True
                                end) (sort_idx l)) ->
  let keys := d_sorted_keys iter sort_keys (dict_of h) (map dict_of fallbacks) in
  Permutation keys (d_keys iter (dict_of h) (map dict_of fallbacks)) /\
  StronglySorted (fun a b => less b a = false) keys /\
  d_sorted_values iter sort_idx (dict_of h) (map dict_of fallbacks) =
  map (f_first (map map_of (h :: fallbacks))) keys.
Proof.
  intros LT SK SI keys. destruct (dicts_of_means (h :: fallbacks)) as [W E]. inversion W as [|? ? W1 W2]; subst.
  split; [apply SK|]. split; [apply SK|].
  rewrite (sorted_values_ok iter any_order less LT sort_keys sort_idx SK SI _ _ W1 W2).
  apply map_ext. intros k. exact (E k).
Qed.

(** A dict derived from another and changed further reports as modified every key
    on which the two differ, only keys it knows, and each once. *)
Theorem C12_modified parent a ops :
  NoDup (fst parent :: new_addrs (snd parent) ++ a :: new_addrs ops) ->
  let before := dict_of parent in
  let after := dict_run iter ops (derive a before) in
  (forall k, d_get after k = f_run ops (map_of parent) k) /\
  NoDup (d_modified_keys iter after (Some before)) /\
  (forall k, In k (d_modified_keys iter after (Some before)) -> f_run ops (map_of parent) k <> None) /\
  (forall k, f_run ops (map_of parent) k <> map_of parent k -> In k (d_modified_keys iter after (Some before))).
Proof.
  intros ND before after. assert (M := dict_of_means parent). fold before in M.
  assert (MA : means after (f_run ops (map_of parent))) by (apply dict_run_means, derive_means, M; exact any_order).
  assert (G := proj2 MA).
  assert (A : NoDup (addrs before) /\ forall x, In x (addrs before) -> In x (fst parent :: new_addrs (snd parent))).
  { assert (N0 : NoDup (fst parent :: new_addrs (snd parent))).
    { clear -ND. change (NoDup ((fst parent :: new_addrs (snd parent)) ++ a :: new_addrs ops)) in ND.
      revert ND. generalize (fst parent :: new_addrs (snd parent)). induction l as [|x l IH]; cbn; intros N; constructor; inversion N; subst; auto.
      intros I. apply H1. apply in_app_iff. auto. }
    inversion N0 as [|? ? N1 N2]; subst. split.
    - apply run_addrs_NoDup; auto; [repeat constructor; auto|]. intros x I [E|[]]. cbn in E. now subst.
    - intros x I. apply run_addrs_In in I. destruct I as [[E|[]]|I]; [left; exact E|right; exact I]. }
  destruct A as [A1 A2].
  destruct (modified_run iter any_order before (map_of parent) a ops M A1) as (B1 & B2 & B3).
  { apply (NoDup_drop (fst parent :: new_addrs (snd parent))). exact ND. }
  { intros x I I2. apply A2 in I2. clear -ND I I2.
    change (NoDup ((fst parent :: new_addrs (snd parent)) ++ a :: new_addrs ops)) in ND.
    revert ND I2. generalize (fst parent :: new_addrs (snd parent)). induction l as [|y l IH]; cbn; [tauto|].
    intros N [->|I2]; inversion N; subst; auto. apply H1. apply in_app_iff. auto. }
  split; [exact G|]. split; [exact B1|]. split.
  - intros k I. rewrite <- G. now apply B2.
  - intros k D. apply B3. fold after. rewrite G, (proj2 M). exact D.
Qed.
End C12.

Print Assumptions C12_get.
Print Assumptions C12_items.
Print Assumptions C12_size.
Print Assumptions C12_present_keys.
Print Assumptions C12_get_or_assign.
Print Assumptions C12_sorted.
Print Assumptions C12_modified.

(** Two layers, an overwritten, a removed, a cleared and an unsupported key, and a
    fallback that adds one *)
Example C12_hypotheses_met :
  let int := fun z => val KInt32 z in
  let one := (1%N, [DSetKey (Some (int 1%Z)) (Some (int 10%Z)); DSetKey (Some (int 2%Z)) (Some (int 20%Z));
                    DDerive 2%N; DSetKey (Some (int 1%Z)) (Some (int 11%Z)); DSetKey (Some (int 2%Z)) None;
                    DSetKey None (Some (int 5%Z)); DGetOrAssign (Some (int 3%Z)) (Some (int 30%Z))]) in
  let two := (7%N, [DSetKey (Some (int 2%Z)) (Some (int 99%Z)); DSetKey (Some (int 4%Z)) (Some (int 40%Z));
                    DClear; DSetKey (Some (int 5%Z)) (Some (int 50%Z))]) in
  let id_ := fun m : dmap => m in
  (forall m, Permutation (id_ m) m) /\
  d_items id_ (dict_of id_ one) [dict_of id_ two] =
    [(int 1%Z, Some (int 11%Z)); (int 2%Z, None); (int 3%Z, Some (int 30%Z)); (int 4%Z, None); (int 5%Z, Some (int 50%Z))] /\
  d_size id_ (dict_of id_ one) = 3%nat /\
  NoDup (fst one :: new_addrs (snd one) ++ 3%N :: new_addrs [DSetKey (Some (int 2%Z)) (Some (int 8%Z))]) /\
  d_modified_keys id_ (dict_run id_ [DSetKey (Some (int 2%Z)) (Some (int 8%Z))] (derive 3%N (dict_of id_ one)))
    (Some (dict_of id_ one)) = [int 2%Z].
Proof.
  cbv zeta. split; [intros; apply Permutation_refl|]. repeat split; try reflexivity.
  repeat constructor; cbn; intuition discriminate.
Qed.
