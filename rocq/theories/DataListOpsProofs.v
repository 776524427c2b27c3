(** The list operations of a bag, against plain sequences. *)
From Coq Require Import NArith ZArith List Bool Arith Lia ZifyBool.
From Verif Require Import ObjectIdModel ItemModel DataListModel DataListSpec ListRunSpec DataListProofs.
Import ListNotations.
Local Open Scope nat_scope.

(** ** Indices and ranges *)
Lemma norm_index_py {A} i (l : list A) : norm_index i (length l) = py_index i l.
Proof.
  unfold norm_index, py_index. set (n := length l). clearbody n. cbv zeta.
  destruct (Z.ltb_spec i 0).
  - destruct (Z.leb_spec (- Z.of_nat n) i), (Z.leb_spec 0 (i + Z.of_nat n)); try lia; cbn [andb].
    + destruct (Z.ltb_spec (i + Z.of_nat n) (Z.of_nat n)), (Z.ltb_spec i (Z.of_nat n)); try lia.
      f_equal. f_equal. apply Z.mod_unique with (-1)%Z; lia.
    + reflexivity.
  - destruct (Z.leb_spec 0 i); [|lia]. destruct (Z.leb_spec (- Z.of_nat n) i); [|lia]. cbn [andb].
    destruct (Z.ltb_spec i (Z.of_nat n)); [|reflexivity].
    f_equal. f_equal. symmetry. apply Z.mod_small. lia.
Qed.

Lemma py_index_lt {A} i (l : list A) p : py_index i l = Some p -> p < length l.
Proof.
  unfold py_index. destruct (_ && _)%bool eqn:E; [|discriminate]. intros H0. injection H0 as <-.
  apply andb_true_iff in E. destruct E as [E1 E2]. apply Z.leb_le in E1. apply Z.ltb_lt in E2.
  assert (H : (0 < Z.of_nat (length l))%Z) by lia.
  generalize (Z.mod_pos_bound i (Z.of_nat (length l)) H). lia.
Qed.

Definition range_ok (to : option Z) (n : nat) : Prop :=
  match to with Some t => t <> kUnspecifiedTo \/ (Z.of_nat n <= kUnspecifiedTo)%Z | None => True end.

Lemma calculate_py {A} from to (l : list A) : range_ok to (length l) ->
  calculate (range_opt from to) (length l) =
    (Z.of_nat (py_start (Some from) l), Z.of_nat (py_stop to l)) /\
  py_start (Some from) l <= length l /\ py_stop to l <= length l.
Proof.
  intros R. unfold calculate, calculate_from, calculate_to, py_start, py_stop, py_bound.
  set (n := length l) in *. clearbody n. cbn [range_opt from_ to_].
  assert (F : (if (from =? 0)%Z then 0%Z
               else clamp (if (from <? 0)%Z then from + Z.of_nat n else from) 0 (Z.of_nat n)) =
              Z.of_nat (if (from <? 0)%Z then Z.to_nat (Z.max 0 (from + Z.of_nat n))
                        else Z.to_nat (Z.min from (Z.of_nat n))) /\
              (if (from <? 0)%Z then Z.to_nat (Z.max 0 (from + Z.of_nat n))
                        else Z.to_nat (Z.min from (Z.of_nat n))) <= n).
  { unfold clamp. destruct (Z.eqb_spec from 0); destruct (Z.ltb_spec from 0); try lia;
      repeat match goal with |- context [if ?b then _ else _] => destruct b eqn:?; lia || idtac end; lia. }
  destruct F as [F1 F2]. rewrite F1. split; [|split; [exact F2|]].
  - f_equal. destruct to as [t|]; [|rewrite Z.eqb_refl; lia].
    unfold range_ok in R. unfold clamp. destruct (Z.eqb_spec t kUnspecifiedTo).
    + destruct R as [R|R]; [congruence|]. subst t. unfold kUnspecifiedTo in *.
      destruct (Z.ltb_spec (2 ^ 63 - 1) 0); lia.
    + destruct (Z.ltb_spec t 0);
        repeat match goal with |- context [if ?b then _ else _] => destruct b eqn:?; lia || idtac end; lia.
  - destruct to as [t|]; [|lia]. destruct (Z.ltb_spec t 0); lia.
Qed.

(** ** Reading *)
Lemma get_from_list_ok l i : wf_list l -> get_from_list l i = item_at i (contents l).
Proof.
  intros W. unfold get_from_list, item_at. rewrite (size_of_contents l W), norm_index_py.
  destruct (py_index i (contents l)); [apply dl_get_contents | reflexivity].
Qed.

Lemma nth_insert_if b i x j : nth j (insert_if_not_set b i x) None =
  if (j =? i) && (i <? length b) then match nth i b None with Some y => Some y | None => Some x end else nth j b None.
Proof.
  unfold insert_if_not_set. destruct (nth i b None) eqn:E.
  - destruct (Nat.eqb_spec j i) as [->|]; [|reflexivity]. rewrite E. now destruct (i <? length b).
  - rewrite nth_upd. reflexivity.
Qed.
Lemma length_insert_if b i x : length (insert_if_not_set b i x) = length b.
Proof. unfold insert_if_not_set. destruct (nth i b None); auto. apply length_upd. Qed.

Lemma fold_insert_length (h : nat -> nat) (g : nat -> option value) q b :
  length (fold_left (fun b i => insert_if_not_set b (h i) (g i)) q b) = length b.
Proof. revert b. induction q; intros; cbn; auto. rewrite IHq. apply length_insert_if. Qed.

Lemma fold_insert (g : nat -> option value) from n : forall offset b j,
  (forall p, offset <= p < offset + n -> nth p b None = None) -> offset + n <= length b ->
  nth j (fold_left (fun b i => insert_if_not_set b (offset + (i - from)) (g i)) (seq from n) b) None =
  if (offset <=? j) && (j <? offset + n) then Some (g (from + (j - offset))) else nth j b None.
Proof.
  assert (G : forall m a offset b j, 
    (forall p, offset + a <= p < offset + a + m -> nth p b None = None) -> offset + a + m <= length b ->
    nth j (fold_left (fun b i => insert_if_not_set b (offset + (i - from)) (g i)) (seq (from + a) m) b) None =
    if (offset + a <=? j) && (j <? offset + a + m) then Some (g (from + (j - offset))) else nth j b None).
  { induction m; intros a offset b j U L; cbn [seq fold_left].
    - destruct (Nat.leb_spec (offset + a) j), (Nat.ltb_spec j (offset + a + 0)); cbn [andb]; auto; lia.
    - replace (S (from + a)) with (from + S a) by lia.
      rewrite IHm.
      + rewrite nth_insert_if. replace (from + a - from) with a by lia.
        rewrite (U (offset + a)) by lia.
        destruct (Nat.leb_spec (offset + S a) j), (Nat.ltb_spec j (offset + S a + m)),
          (Nat.leb_spec (offset + a) j), (Nat.ltb_spec j (offset + a + S m)), (Nat.eqb_spec j (offset + a)),
          (Nat.ltb_spec (offset + a) (length b)); cbn [andb]; auto; try lia.
        subst j. f_equal. f_equal. lia.
      + intros p Hp. rewrite nth_insert_if. replace (from + a - from) with a by lia.
        destruct (Nat.eqb_spec p (offset + a)); [lia|]. cbn [andb]. apply U. lia.
      + rewrite length_insert_if. lia. }
  intros offset b j U L. generalize (G n 0 offset b j). rewrite !Nat.add_0_r. auto.
Qed.

(** What AddToDataSlice leaves in the builder *)
Lemma add_to_slice_length b offset from to l : length (add_to_slice b offset from to l) = length b.
Proof. unfold add_to_slice. destruct (data_ l); auto; apply fold_insert_length. Qed.

Definition slot_value (o : option (option value)) : option value := match o with Some x => x | None => None end.

Lemma add_to_slice_nth b offset from to l j : 
  (forall p, offset <= p < offset + (to - from) -> nth p b None = None) -> offset + (to - from) <= length b ->
  slot_value (nth j (add_to_slice b offset from to l) None) =
  if (offset <=? j) && (j <? offset + (to - from)) then nth (from + (j - offset)) (contents l) None
  else slot_value (nth j b None).
Proof.
  intros U L. unfold add_to_slice, contents. destruct (data_ l) as [|k v|v].
  - destruct (Nat.leb_spec offset j), (Nat.ltb_spec j (offset + (to - from))); cbn [andb]; auto.
    rewrite U by lia. rewrite nth_repeat_lt. cbn. dif.
  - rewrite (fold_insert (fun i => item_of_opt k (nth i v None))) by auto.
    destruct (_ && _)%bool; [|reflexivity]. cbn [slot_value].
    change (@None value) with (item_of_opt k None). now rewrite map_nth.
  - rewrite (fold_insert (fun i => nth i v None)) by auto. destruct (_ && _)%bool; reflexivity.
Qed.

(** outside of the range the builder is untouched *)
Lemma add_to_slice_outside b offset from to l j :
  (forall p, offset <= p < offset + (to - from) -> nth p b None = None) -> offset + (to - from) <= length b ->
  ~ offset <= j < offset + (to - from) ->
  nth j (add_to_slice b offset from to l) None = nth j b None.
Proof.
  intros U L N. unfold add_to_slice. destruct (data_ l) as [|k v|v]; auto.
  - rewrite (fold_insert (fun i => item_of_opt k (nth i v None))) by auto.
    destruct (Nat.leb_spec offset j), (Nat.ltb_spec j (offset + (to - from))); cbn [andb]; auto; lia.
  - rewrite (fold_insert (fun i => nth i v None)) by auto.
    destruct (Nat.leb_spec offset j), (Nat.ltb_spec j (offset + (to - from))); cbn [andb]; auto; lia.
Qed.

Lemma build_nth b j : nth j (build b) None = slot_value (nth j b None).
Proof. unfold build. change (@None value) with (slot_value None). now rewrite (map_nth slot_value). Qed.
Lemma build_length b : length (build b) = length b.
Proof. apply map_length. Qed.
Lemma new_builder_nth n p : nth p (new_builder n) None = None.
Proof. unfold new_builder. rewrite nth_repeat_lt. dif. Qed.

Lemma explode_list_ok l from to : wf_list l -> range_ok to (size_ l) ->
  explode_list l (range_opt from to) = py_slice (Some from) to (contents l).
Proof.
  intros W R. unfold explode_list, py_slice. rewrite (size_of_contents l W) in *.
  destruct (calculate_py from to (contents l) R) as (-> & B1 & B2).
  set (a := py_start (Some from) (contents l)) in *. set (b := py_stop to (contents l)) in *. clearbody a b.
  destruct (Z.leb_spec (Z.of_nat b) (Z.of_nat a)).
  - replace (b - a) with 0 by lia. reflexivity.
  - rewrite !Nat2Z.id. replace (Z.to_nat (Z.of_nat b - Z.of_nat a)) with (b - a) by lia.
    apply (nth_ext_eq _ _ None).
    + rewrite build_length, add_to_slice_length, firstn_length, skipn_length.
      unfold new_builder. rewrite repeat_length. lia.
    + intros j Hj. rewrite build_length, add_to_slice_length in Hj. unfold new_builder in Hj.
      rewrite repeat_length in Hj.
      rewrite build_nth, add_to_slice_nth.
      * rewrite nth_firstn, nth_skipn. cbn [Nat.leb Nat.add andb].
        destruct (Nat.ltb_spec j (b - a)); [|lia]. f_equal. lia.
      * intros. apply new_builder_nth.
      * unfold new_builder. rewrite repeat_length. lia.
Qed.

(** ** Writing to one list *)
Definition models (l : datalist) (c : list (option value)) : Prop := wf_list l /\ contents l = c.

Lemma set_in_list_ok l i x : wf_list l -> models (set_in_list l i x) (put_at i x (contents l)).
Proof.
  intros W. unfold set_in_list, put_at. rewrite (size_of_contents l W), norm_index_py.
  destruct (py_index i (contents l)) as [p|] eqn:E; [|now split].
  destruct (set_item_ok l p x W) as [A B]. split; [exact A|]. rewrite B. apply upd_app.
  eapply py_index_lt; eauto.
Qed.

Lemma append_ok l x : wf_list l -> models (append_to_list l x) (contents l ++ [x]).
Proof.
  intros W. unfold append_to_list. destruct (insert_item_ok l (size_ l) x W) as [A B]; [lia|].
  split; [exact A|]. rewrite B, (size_of_contents l W). apply vec_insert_end.
Qed.

Lemma remove_index_ok l i : wf_list l -> models (remove_index l i) (drop_at i (contents l)).
Proof.
  intros W. unfold remove_index, drop_at. rewrite (size_of_contents l W), norm_index_py.
  destruct (py_index i (contents l)) as [p|] eqn:E; [|now split].
  assert (p < size_ l) by (rewrite (size_of_contents l W); eapply py_index_lt; eauto).
  destruct (remove_ok l p 1 W) as (A & _ & B); [lia|].
  split; [exact A|]. rewrite B. now rewrite Nat.add_1_r.
Qed.

Lemma pop_ok l i : wf_list l -> fst (pop_from_list l i) = item_at i (contents l) /\
  models (snd (pop_from_list l i)) (drop_at i (contents l)).
Proof.
  intros W. generalize (remove_index_ok l i W) (get_from_list_ok l i W).
  unfold remove_index, get_from_list, pop_from_list.
  destruct (norm_index i (size_ l)); cbn; auto.
Qed.

Lemma remove_range_ok l from to : wf_list l -> range_ok to (size_ l) ->
  models (remove_range l (range_opt from to)) (py_delete (Some from) to (contents l)).
Proof.
  intros W R. unfold remove_range, py_delete, py_assign. rewrite (size_of_contents l W) in *.
  destruct (calculate_py from to (contents l) R) as (-> & B1 & B2).
  set (a := py_start (Some from) (contents l)) in *. set (b := py_stop to (contents l)) in *. clearbody a b.
  cbn [app]. destruct (Z.ltb_spec (Z.of_nat a) (Z.of_nat b)).
  - rewrite Nat2Z.id. replace (Z.to_nat (Z.of_nat b - Z.of_nat a)) with (b - a) by lia.
    destruct (remove_ok l a (b - a) W) as (A & _ & B); [rewrite (size_of_contents l W); lia|].
    split; [exact A|]. rewrite B. f_equal. f_equal. lia.
  - split; [exact W|]. replace (Nat.max a b) with a by lia. symmetry. apply firstn_skipn.
Qed.

(** After RemoveAndReserveInList: the part before, [count] items (any), the part after *)
Lemma reserve_ok l from to count : wf_list l -> range_ok to (size_ l) ->
  let a := py_start (Some from) (contents l) in
  let b := py_stop to (contents l) in
  exists l' gap, remove_and_reserve l (range_opt from to) count = (a, l') /\
    length gap = count /\ a <= size_ l /\
    models l' (firstn a (contents l) ++ gap ++ skipn (Nat.max a b) (contents l)).
Proof.
  intros W R a b. unfold remove_and_reserve.
  assert (SZ := size_of_contents l W). rewrite SZ in *.
  destruct (calculate_py from to (contents l) R) as (-> & B1 & B2).
  fold a b. fold a in B1. fold b in B2. clearbody a b. set (c := contents l) in *.
  rewrite !Nat2Z.id.
  destruct (Z.leb_spec (Z.of_nat a) (Z.of_nat b)).
  - destruct (Z.ltb_spec (Z.of_nat count - (Z.of_nat b - Z.of_nat a)) 0);
      [|destruct (Z.ltb_spec 0 (Z.of_nat count - (Z.of_nat b - Z.of_nat a)))].
    + replace (Z.to_nat (Z.of_nat b + (Z.of_nat count - (Z.of_nat b - Z.of_nat a)))) with (a + count) by lia.
      replace (Z.to_nat (- (Z.of_nat count - (Z.of_nat b - Z.of_nat a)))) with (b - a - count) by lia.
      destruct (remove_ok l (a + count) (b - a - count) W) as (A & _ & B); [rewrite SZ; lia|].
      eexists _, (firstn count (skipn a c)). split; [reflexivity|]. split; [|split; [exact B1|]].
      * rewrite firstn_length, skipn_length. lia.
      * split; [exact A|]. rewrite B. fold c.
        replace (a + count + (b - a - count)) with b by lia. replace (Nat.max a b) with b by lia.
        rewrite app_assoc. f_equal.
        rewrite <- (firstn_skipn a (firstn (a + count) c)). f_equal.
        -- rewrite firstn_firstn. f_equal. lia.
        -- rewrite skipn_firstn_comm. f_equal. lia.
    + replace (Z.to_nat (Z.of_nat count - (Z.of_nat b - Z.of_nat a))) with (count - (b - a)) by lia.
      destruct (insert_missing_ok l b (count - (b - a)) W) as (A & _ & B); [rewrite SZ; lia|].
      eexists _, (firstn (b - a) (skipn a c) ++ repeat None (count - (b - a))).
      split; [reflexivity|]. split; [|split; [exact B1|]].
      * rewrite app_length, firstn_length, skipn_length, repeat_length. lia.
      * split; [exact A|]. rewrite B. fold c. replace (Nat.max a b) with b by lia.
        rewrite !app_assoc. f_equal. f_equal.
        rewrite <- (firstn_skipn a (firstn b c)). f_equal.
        -- rewrite firstn_firstn. f_equal. lia.
        -- rewrite skipn_firstn_comm. reflexivity.
    + eexists l, (firstn (b - a) (skipn a c)).
      split; [reflexivity|]. split; [|split; [exact B1|]].
      * rewrite firstn_length, skipn_length. lia.
      * split; [exact W|]. fold c. replace (Nat.max a b) with b by lia.
        rewrite app_assoc. rewrite <- (firstn_skipn b c) at 1. f_equal.
        rewrite <- (firstn_skipn a (firstn b c)). f_equal.
        -- rewrite firstn_firstn. f_equal. lia.
        -- rewrite skipn_firstn_comm. reflexivity.
  - destruct (insert_missing_ok l a count W) as (A & _ & B); [rewrite SZ; lia|].
    eexists _, (repeat None count). split; [reflexivity|]. split; [apply repeat_length|]. split; [exact B1|].
    split; [exact A|]. rewrite B. fold c. now replace (Nat.max a b) with a by lia.
Qed.

(** ** Slices of values *)
Lemma slice_items_nth s i : nth i (slice_items s) None = if i <? sl_size s then slice_at s i else None.
Proof.
  unfold slice_items. destruct (Nat.ltb_spec i (sl_size s)).
  - rewrite (nth_indep _ None (slice_at s 0)) by (rewrite map_length, seq_length; lia).
    rewrite map_nth. f_equal. now rewrite seq_nth by lia.
  - apply nth_overflow. rewrite map_length, seq_length. lia.
Qed.
Lemma slice_items_length s : length (slice_items s) = sl_size s.
Proof. unfold slice_items. now rewrite map_length, seq_length. Qed.

(** One pass over an array that sets present items [src .. src+count) at [dst ..];
    the typed and the indexed loop are the same pass. *)
Definition set_present (k : kind) (v : list (option (cval k))) (src dst : nat) (l : datalist) (offset : nat) : datalist :=
  match nth (src + offset) v None with Some x => set_typed k l (dst + offset) (Some x) | None => l end.

Lemma set_present_pass k v src dst count : forall a l, wf_list l -> dst + a + count <= length (contents l) ->
  let l' := fold_left (set_present k v src dst) (seq a count) l in
  wf_list l' /\ length (contents l') = length (contents l) /\
  forall j, nth j (contents l') None =
    if (dst + a <=? j) && (j <? dst + a + count) then
      match item_of_opt k (nth (src + (j - dst)) v None) with Some x => Some x | None => nth j (contents l) None end
    else nth j (contents l) None.
Proof.
  induction count; intros a l W H; cbn [seq fold_left].
  - split; [exact W|]. split; [reflexivity|]. intros j.
    destruct (Nat.leb_spec (dst + a) j), (Nat.ltb_spec j (dst + a + 0)); cbn [andb]; auto; lia.
  - set (l1 := set_present k v src dst l a).
    assert (W1 : wf_list l1 /\ contents l1 =
       match item_of_opt k (nth (src + a) v None) with Some x => upd (contents l) (dst + a) (Some x) | None => contents l end).
    { unfold l1, set_present. destruct (nth (src + a) v None) as [x|] eqn:E; cbn.
      - apply (set_typed_ok k l (dst + a) (Some x) W).
      - auto. }
    destruct W1 as [W1 C1].
    assert (L1 : length (contents l1) = length (contents l)).
    { rewrite C1. destruct (item_of_opt k (nth (src + a) v None)); auto. apply length_upd. }
    destruct (IHcount (S a) l1 W1) as (A & B & C); [lia|].
    split; [exact A|]. split; [lia|]. intros j. rewrite C.
    assert (N1 : nth j (contents l1) None = if j =? dst + a then
       match item_of_opt k (nth (src + a) v None) with Some x => Some x | None => nth j (contents l) None end
       else nth j (contents l) None).
    { rewrite C1. destruct (item_of_opt k (nth (src + a) v None)) as [x|].
      - rewrite nth_upd. destruct (Nat.ltb_spec (dst + a) (length (contents l))); [|lia].
        now rewrite andb_true_r.
      - now destruct (j =? dst + a). }
    rewrite N1.
    destruct (Nat.leb_spec (dst + S a) j), (Nat.ltb_spec j (dst + S a + count)),
      (Nat.leb_spec (dst + a) j), (Nat.ltb_spec j (dst + a + S count)), (Nat.eqb_spec j (dst + a));
      cbn [andb]; auto; try lia.
    subst j. replace (dst + a - dst) with a by lia. reflexivity.
Qed.

(** All arrays of a slice, one after the other *)
Lemma set_arrays_pass vs src dst count l : wf_list l -> slice_wf vs -> src + count <= sl_size vs ->
  dst + count <= length (contents l) ->
  (forall j, dst <= j < dst + count -> nth j (contents l) None = None) ->
  let l' := fold_left (fun l (a : {k : kind & list (option (cval k))}) =>
              fold_left (set_present (projT1 a) (projT2 a) src dst) (seq 0 count) l) (sl_values vs) l in
  models l' (firstn dst (contents l) ++ firstn count (skipn src (slice_items vs)) ++
             skipn (dst + count) (contents l)).
Proof.
  intros W [SL SD] HS HD HN.
  assert (G : forall q l, wf_list l -> dst + count <= length (contents l) ->
    let l' := fold_left (fun l (a : {k : kind & list (option (cval k))}) =>
              fold_left (set_present (projT1 a) (projT2 a) src dst) (seq 0 count) l) q l in
    wf_list l' /\ length (contents l') = length (contents l) /\
    forall j, nth j (contents l') None =
      if (dst <=? j) && (j <? dst + count) then
        fold_left (fun r a => match array_item (src + (j - dst)) a with Some x => Some x | None => r end) q
          (nth j (contents l) None)
      else nth j (contents l) None).
  { clear. induction q as [|[k v] q IH]; intros l W H; cbn [fold_left].
    - split; [exact W|]. split; [reflexivity|]. intros j. now destruct (_ && _)%bool.
    - cbn [projT1 projT2]. destruct (set_present_pass k v src dst count 0 l W) as (A & B & C); [lia|].
      set (l1 := fold_left (set_present k v src dst) (seq 0 count) l) in *.
      destruct (IH l1 A) as (A2 & B2 & C2); [lia|].
      split; [exact A2|]. split; [lia|]. intros j. rewrite C2, C.
      rewrite Nat.add_0_r. cbn [array_item].
      destruct (_ && _)%bool; reflexivity. }
  destruct (G (sl_values vs) l W HD) as (A & B & C). cbv zeta. split; [exact A|].
  apply (nth_ext_eq _ _ None).
  - rewrite B, !app_length, !firstn_length, !skipn_length, slice_items_length. lia.
  - intros j Hj. rewrite C. rewrite B in Hj.
    assert (L1 : length (firstn dst (contents l)) = dst) by (rewrite firstn_length; lia).
    assert (L2 : length (firstn count (skipn src (slice_items vs))) = count)
      by (rewrite firstn_length, skipn_length, slice_items_length; lia).
    destruct (Nat.leb_spec dst j), (Nat.ltb_spec j (dst + count)); cbn [andb]; try lia.
    + rewrite app_nth2, app_nth1 by lia. rewrite nth_firstn, nth_skipn, slice_items_nth, L1.
      destruct (Nat.ltb_spec (j - dst) count), (Nat.ltb_spec (src + (j - dst)) (sl_size vs)); try lia.
      rewrite HN by lia. set (i := src + (j - dst)) in *. unfold slice_at.
      assert (SDi := SD i ltac:(lia)). clear -SDi.
      generalize dependent (sl_values vs). intros q SDi.
      assert (G2 : forall q r, Forall (fun a => array_item i a = None) q ->
        fold_left (fun r a => match array_item i a with Some x => Some x | None => r end) q r = r).
      { clear. induction q; intros r F; cbn; auto. inversion F; subst. rewrite H1. auto. }
      induction q as [|a q IH]; [reflexivity|]. cbn [fold_left fold_right].
      destruct (array_item i a) as [x|] eqn:E.
      * apply G2. apply (SDi [] a q eq_refl). congruence.
      * apply IH. intros pre b post Hq Hb. specialize (SDi (a :: pre) b post).
        cbn in SDi. rewrite Hq in SDi. specialize (SDi eq_refl Hb). now inversion SDi.
    + rewrite !app_nth2 by lia. rewrite nth_skipn. f_equal. lia.
    + rewrite app_nth1 by lia. rewrite nth_firstn. destruct (Nat.ltb_spec j dst); [reflexivity|lia].
Qed.

(** Setting [count] consecutive positions to given items *)
Lemma set_items_pass (g : nat -> option value) dst count : forall a l, wf_list l -> dst + a + count <= length (contents l) ->
  let l' := fold_left (fun l i => set_item l (dst + i) (g i)) (seq a count) l in
  wf_list l' /\ contents l' = fold_left (fun v i => upd v (dst + i) (g i)) (seq a count) (contents l).
Proof.
  induction count; intros a l W H; cbn [seq fold_left]; [auto|].
  destruct (set_item_ok l (dst + a) (g a) W) as [W1 C1].
  destruct (IHcount (S a) (set_item l (dst + a) (g a)) W1) as [A B]; [rewrite C1, length_upd; lia|].
  split; [exact A|]. now rewrite B, C1.
Qed.

Lemma fold_upd_run (g : nat -> option value) dst count v (vs : list (option value)) :
  dst + count <= length v -> length vs = count -> (forall i, i < count -> nth i vs None = g i) ->
  fold_left (fun v i => upd v (dst + i) (g i)) (seq 0 count) v = firstn dst v ++ vs ++ skipn (dst + count) v.
Proof.
  intros H L E. apply (nth_ext_eq _ _ None).
  - rewrite length_fold_upd, !app_length, firstn_length, skipn_length. lia.
  - intros j Hj. rewrite length_fold_upd in Hj. rewrite nth_fold_upd, Nat.add_0_r.
    assert (L1 : length (firstn dst v) = dst) by (rewrite firstn_length; lia).
    destruct (Nat.leb_spec dst j), (Nat.ltb_spec j (dst + count)), (Nat.ltb_spec j (length v)); cbn [andb]; try lia.
    + rewrite app_nth2, app_nth1 by lia. rewrite L1. rewrite E by lia. reflexivity.
    + rewrite !app_nth2 by lia. rewrite nth_skipn. f_equal. lia.
    + rewrite app_nth1 by lia. rewrite nth_firstn. destruct (Nat.ltb_spec j dst); [reflexivity|lia].
Qed.

(** Putting [vs] into the gap *)
Lemma fill_gap {A} (p gap q vs : list A) : length gap = length vs ->
  firstn (length p) (p ++ gap ++ q) ++ vs ++ skipn (length p + length vs) (p ++ gap ++ q) = p ++ vs ++ q.
Proof.
  intros H. rewrite firstn_app, firstn_all, Nat.sub_diag. cbn [firstn]. rewrite app_nil_r. f_equal. f_equal.
  rewrite skipn_app, skipn_all2 by lia. cbn [app].
  replace (length p + length vs - length p) with (length vs) by lia.
  rewrite skipn_app, <- H, skipn_all, Nat.sub_diag. reflexivity.
Qed.

Lemma fold_set_present_combine k v src dst l : src = 0 ->
  fold_left (fun l (ix : nat * option (cval k)) =>
        match snd ix with Some x => set_typed k l (dst + fst ix) (Some x) | None => l end)
        (combine (seq 0 (length v)) v) l = fold_left (set_present k v src dst) (seq 0 (length v)) l.
Proof.
  intros ->. assert (G : forall (w : list (option (cval k))) a l, 
    (forall i, i < length w -> nth i w None = nth (a + i) v None) ->
    fold_left (fun l (ix : nat * option (cval k)) =>
        match snd ix with Some x => set_typed k l (dst + fst ix) (Some x) | None => l end)
        (combine (seq a (length w)) w) l = fold_left (set_present k v 0 dst) (seq a (length w)) l).
  { clear. induction w as [|x w IH]; intros a l E; cbn [length seq combine fold_left]; auto.
    rewrite IH.
    - f_equal. unfold set_present. cbn [fst snd Nat.add]. specialize (E 0). cbn in E.
      rewrite Nat.add_0_r in E. rewrite <- E by lia. reflexivity.
    - intros i Hi. specialize (E (S i)). cbn in E. rewrite E by lia. f_equal. lia. }
  apply G. reflexivity.
Qed.

Lemma extend_list_ok l vs : wf_list l -> slice_wf vs ->
  models (extend_list l vs) (contents l ++ slice_items vs).
Proof.
  intros W WS. unfold extend_list. assert (LI := slice_items_length vs).
  destruct (Nat.eqb_spec (sl_size vs) 0) as [Z|NZ].
  - split; [exact W|]. destruct (slice_items vs); cbn in LI; [|lia]. now rewrite app_nil_r.
  - destruct (resize_ok l (size_ l + sl_size vs) W) as (W1 & S1 & C1).
    set (l1 := resize l (size_ l + sl_size vs)) in *.
    assert (SZ := size_of_contents l W).
    assert (E1 : contents l1 = contents l ++ repeat None (sl_size vs)).
    { rewrite C1. unfold vec_resize. rewrite firstn_all2 by lia. f_equal. f_equal. lia. }
    assert (P := set_arrays_pass vs 0 (size_ l) (sl_size vs) l1 W1 WS).
    assert (N : forall j, nth j (contents l1) None = if j <? size_ l then nth j (contents l) None else None).
    { intros j. rewrite E1. destruct (Nat.ltb_spec j (size_ l)).
      - rewrite app_nth1 by lia. reflexivity.
      - rewrite app_nth2 by lia. rewrite nth_repeat_lt. dif. }
    assert (P' : models
      (fold_left (fun l0 (a : {k : kind & list (option (cval k))}) =>
         fold_left (set_present (projT1 a) (projT2 a) 0 (size_ l)) (seq 0 (sl_size vs)) l0) (sl_values vs) l1)
      (contents l ++ slice_items vs)).
    { replace (contents l ++ slice_items vs) with
        (firstn (size_ l) (contents l1) ++ firstn (sl_size vs) (skipn 0 (slice_items vs)) ++
         skipn (size_ l + sl_size vs) (contents l1)).
      - apply P; try lia.
        + rewrite E1, app_length, repeat_length. lia.
        + intros j Hj. rewrite N. destruct (Nat.ltb_spec j (size_ l)); [lia|reflexivity].
      - rewrite E1. cbn [skipn]. rewrite firstn_app, SZ, firstn_all, Nat.sub_diag. cbn [firstn].
        rewrite app_nil_r. f_equal. rewrite firstn_all2 by lia.
        rewrite skipn_all2 by (rewrite app_length, repeat_length; lia). apply app_nil_r. }
    destruct WS as [SL _].
    assert (EQ : forall q l0, Forall (fun a => length (projT2 a) = sl_size vs) q ->
      fold_left (fun l0 (a : {k : kind & list (option (cval k))}) =>
        let 'existT _ k v := a in
        fold_left (fun l0 (ix : nat * option (cval k)) =>
          match snd ix with Some x => set_typed k l0 (size_ l + fst ix) (Some x) | None => l0 end)
          (combine (seq 0 (length v)) v) l0) q l0 =
      fold_left (fun l0 (a : {k : kind & list (option (cval k))}) =>
         fold_left (set_present (projT1 a) (projT2 a) 0 (size_ l)) (seq 0 (sl_size vs)) l0) q l0).
    { induction q as [|[k v] q IH]; intros l0 F; cbn [fold_left]; auto. inversion F as [|? ? F1 F2]; subst.
      rewrite IH by exact F2. cbn [projT1 projT2] in *. now rewrite (fold_set_present_combine k v 0), F1. }
    rewrite EQ by exact SL. exact P'.
Qed.

(** ** Replacing a range *)
Lemma single_items k v vs i : sl_values vs = [existT _ k v] -> slice_at vs i = item_of_opt k (nth i v None).
Proof. intros E. unfold slice_at. rewrite E. cbn. now destruct (item_of_opt k (nth i v None)). Qed.

Lemma set_typed_pass k dst : forall (w : list (option (cval k))) a l, wf_list l ->
  let l' := fold_left (fun l (ix : nat * option (cval k)) => set_typed k l (dst + fst ix) (snd ix))
              (combine (seq a (length w)) w) l in
  wf_list l' /\
  contents l' = fold_left (fun c '(i, x) => upd c (dst + i) (item_of_opt k x)) (combine (seq a (length w)) w) (contents l).
Proof.
  induction w as [|x w IH]; intros a l W; cbn [length seq combine fold_left]; [auto|]. cbn [fst snd].
  destruct (set_typed_ok k l (dst + a) x W) as [W1 C1].
  destruct (IH (S a) (set_typed k l (dst + a) x) W1) as [A B]. split; [exact A|]. now rewrite B, C1.
Qed.

Lemma map_item_nth k (v : list (option (cval k))) j : nth j (map (item_of_opt k) v) None = item_of_opt k (nth j v None).
Proof. change (@None value) with (item_of_opt k None). apply map_nth. Qed.

Lemma single_slice_items k v vs : sl_values vs = [existT _ k v] -> length v = sl_size vs ->
  slice_items vs = map (item_of_opt k) v.
Proof.
  intros E L. apply (nth_ext_eq _ _ None).
  - now rewrite slice_items_length, map_length.
  - intros j Hj. rewrite slice_items_length in Hj. rewrite slice_items_nth, map_item_nth.
    destruct (Nat.ltb_spec j (sl_size vs)); [|lia]. now apply single_items.
Qed.

Lemma replace_in_list_ok l from to vs : wf_list l -> range_ok to (size_ l) -> slice_wf vs ->
  models (replace_in_list l (range_opt from to) vs) (py_assign (Some from) to (slice_items vs) (contents l)).
Proof.
  intros W R WS. unfold replace_in_list, py_assign.
  destruct (reserve_ok l from to (sl_size vs) W R) as (l' & gap & -> & G & Ha & W' & C).
  set (a := py_start (Some from) (contents l)) in *. set (b := py_stop to (contents l)) in *. clearbody a b.
  assert (SZ := size_of_contents l W). assert (LI := slice_items_length vs).
  set (P := firstn a (contents l)) in *. set (Q := skipn (Nat.max a b) (contents l)) in *.
  assert (LP : length P = a) by (unfold P; rewrite firstn_length; lia).
  assert (LC : a + sl_size vs <= length (contents l')) by (rewrite C, !app_length; lia).
  assert (FG := fill_gap P gap Q (slice_items vs) ltac:(lia)). rewrite <- C, LP, LI in FG.
  destruct (negb (is_single_dtype vs)) eqn:E.
  - destruct (set_items_pass (slice_at vs) a (sl_size vs) 0 l' W') as [A B]; [lia|].
    split; [exact A|]. rewrite B.
    rewrite (fold_upd_run (slice_at vs) a (sl_size vs) (contents l') (slice_items vs)); auto.
    intros i Hi. rewrite slice_items_nth. now destruct (Nat.ltb_spec i (sl_size vs)); [|lia].
  - unfold is_single_dtype in E. destruct (sl_values vs) as [|[k v] [|? ?]] eqn:V; try discriminate.
    destruct WS as [SL _]. rewrite V in SL. assert (SL1 : length v = sl_size vs) by (inversion SL; assumption). clear SL.
    cbn [fold_left]. destruct (set_typed_pass k a v 0 l' W') as [A B].
    split; [exact A|]. rewrite B.
    rewrite (fold_upd_combine (item_of_opt k)) by lia.
    rewrite (single_slice_items k v vs V SL1) in FG |- *. rewrite SL1. exact FG.
Qed.

(** ** Batches *)
Definition repr (s : store) (p : lists_spec) : Prop :=
  forall id, match s id, p id with
             | Some l, Some c => models l c
             | None, None => True
             | _, _ => False
             end.

Lemma repr_get s p id : repr s p -> models (st_get s id) (seq_of p id).
Proof.
  intros R. specialize (R id). unfold st_get, seq_of. destruct (s id), (p id); try contradiction; auto.
  now split.
Qed.
Lemma repr_set s p id l c : repr s p -> models l c -> repr (st_set s id l) (assign p id c).
Proof. intros R M j. unfold st_set, assign. destruct (oid_eqb j id); auto. apply R. Qed.

Fixpoint outputs {R} (q : nat -> list ditem -> R) (f : nat -> list ditem -> list ditem) (offset : nat)
    (lists : list (option ObjectId)) (s : lists_spec) : list (nat * R) :=
  match lists with
  | [] => []
  | None :: r => outputs q f (S offset) r s
  | Some id :: r =>
      if is_list id
      then (offset, q offset (seq_of s id)) :: outputs q f (S offset) r (assign s id (f offset (seq_of s id)))
      else outputs q f (S offset) r s
  end.

Lemma for_each_list_ok {R} (f : nat -> datalist -> R * datalist) (q : nat -> list ditem -> R) (g : nat -> list ditem -> list ditem)
    lists s p n :
  length lists = n ->
  (forall i l, i < n -> wf_list l -> fst (f i l) = q i (contents l) /\ models (snd (f i l)) (g i (contents l))) ->
  repr s p ->
  let '(out, s', err) := for_each_list f lists s in
  out = outputs q g 0 lists p /\ repr s' (each g 0 lists p) /\ err = has_non_list lists.
Proof.
  intros N F R0. unfold for_each_list.
  assert (G : forall ls a out s p err, a + length ls = n -> repr s p ->
    let '(out', s', err') :=
      fold_left (fun '(out, s, err) '(offset, id) =>
        match id with
        | None => (out, s, err)
        | Some id =>
            if is_list id
            then let '(r, l) := f offset (st_get s id) in (out ++ [(offset, r)], st_set s id l, err)
            else (out, s, true)
        end)
        (combine (seq a (length ls)) ls) (out, s, err) in
    out' = out ++ outputs q g a ls p /\ repr s' (each g a ls p) /\ err' = err || has_non_list ls).
  { clear R0 s p N. induction ls as [|[id|] ls IH]; intros a out s p err N R0; cbn [length seq combine fold_left].
    - cbn. now rewrite app_nil_r, orb_false_r.
    - cbn [length] in N. cbn [outputs each]. unfold has_non_list. cbn [existsb]. fold (has_non_list ls).
      destruct (is_list id) eqn:L.
      + destruct (repr_get s p id R0) as [W C].
        destruct (F a (st_get s id) ltac:(lia) W) as [F1 F2]. rewrite C in *.
        destruct (f a (st_get s id)) as [r l]. cbn [fst snd] in *.
        specialize (IH (S a) (out ++ [(a, r)]) (st_set s id l) (assign p id (g a (seq_of p id))) err
                      ltac:(lia) (repr_set _ _ _ _ _ R0 F2)).
        destruct (fold_left _ _ _) as [[out' s'] err']. destruct IH as (H1 & H2 & H3).
        subst r. rewrite <- app_assoc in H1. auto.
      + specialize (IH (S a) out s p true ltac:(lia) R0).
        destruct (fold_left _ _ _) as [[out' s'] err']. destruct IH as (H1 & H2 & H3).
        split; auto. split; auto. rewrite H3. now destruct err.
    - cbn [length] in N. specialize (IH (S a) out s p err ltac:(lia) R0). exact IH. }
  specialize (G lists 0 [] s p false N R0). exact G.
Qed.

Lemma for_each_list__ok (f : nat -> datalist -> datalist) (g : nat -> list ditem -> list ditem) lists s p n :
  length lists = n ->
  (forall i l, i < n -> wf_list l -> models (f i l) (g i (contents l))) -> repr s p ->
  repr (fst (for_each_list_ f lists s)) (each g 0 lists p) /\ snd (for_each_list_ f lists s) = has_non_list lists.
Proof.
  intros N F R0. unfold for_each_list_.
  generalize (for_each_list_ok (fun i l => (tt, f i l)) (fun _ _ => tt) g lists s p n N
    (fun i l Hi W => conj eq_refl (F i l Hi W)) R0).
  destruct (for_each_list _ lists s) as [[out s'] err]. intros (_ & A & B). auto.
Qed.

Lemma with_index_eq lists indices : with_index lists indices = where_index lists indices.
Proof. unfold with_index, where_index. apply map_ext. intros [id i]. reflexivity. Qed.
Lemma where_index_length lists indices : length lists = length indices ->
  length (where_index lists indices) = length lists.
Proof. intros E. unfold where_index. rewrite map_length, combine_length. lia. Qed.

Lemma to_ok_range to n : to_ok to -> range_ok to n.
Proof. unfold to_ok, range_ok. destruct to; auto. intros H. left. congruence. Qed.

(** the parts that batch operations share *)
Lemma set_one_ok vs i pos l : wf_list l -> pos < size_ l ->
  models (match sl_values vs with
          | [existT _ k v] =>
              match nth i v None with Some x => set_typed k l pos (Some x) | None => set_to_missing l pos end
          | _ => set_item l pos (slice_at vs i)
          end)
    (firstn pos (contents l) ++ slice_at vs i :: skipn (S pos) (contents l)).
Proof.
  intros W H. assert (SZ := size_of_contents l W). rewrite <- upd_app by lia.
  destruct (sl_values vs) as [|[k v] [|? ?]] eqn:V; try apply (set_item_ok l pos (slice_at vs i) W).
  rewrite (single_items k v vs i V). destruct (nth i v None) as [x|].
  - apply (set_typed_ok k l pos (Some x) W).
  - destruct (set_to_missing_ok l pos W) as (A & _ & B). now split.
Qed.

Lemma append_one_ok vs i l : wf_list l ->
  models (match sl_values vs with
          | [existT _ k v] => insert_typed k l (size_ l) (nth i v None)
          | _ => insert_item l (size_ l) (slice_at vs i)
          end) (contents l ++ [slice_at vs i]).
Proof.
  intros W. destruct (sl_values vs) as [|[k v] [|? ?]] eqn:V; try apply (append_ok l (slice_at vs i) W).
  rewrite (single_items k v vs i V). rewrite <- vec_insert_end, <- (size_of_contents l W).
  apply (insert_typed_ok k l (size_ l) (nth i v None) W).
Qed.

Lemma extend_one_ok vs src count l : wf_list l -> slice_wf vs -> src + count <= sl_size vs ->
  models (fold_left (fun l0 (a : {k : kind & list (option (cval k))}) =>
      let 'existT _ k v := a in
      fold_left (fun l1 offset =>
        match nth (src + offset) v None with Some x => set_typed k l1 (size_ l + offset) (Some x) | None => l1 end)
        (seq 0 count) l0)
      (sl_values vs) (resize l (size_ l + count)))
    (contents l ++ firstn count (skipn src (slice_items vs))).
Proof.
  intros W WS H. destruct (resize_ok l (size_ l + count) W) as (W1 & S1 & C1).
  set (l1 := resize l (size_ l + count)) in *. assert (SZ := size_of_contents l W).
  assert (E1 : contents l1 = contents l ++ repeat None count).
  { rewrite C1. unfold vec_resize. rewrite firstn_all2 by lia. f_equal. f_equal. lia. }
  assert (P := set_arrays_pass vs src (size_ l) count l1 W1 WS H).
  replace (contents l ++ firstn count (skipn src (slice_items vs))) with
    (firstn (size_ l) (contents l1) ++ firstn count (skipn src (slice_items vs)) ++
     skipn (size_ l + count) (contents l1)).
  - assert (EQ : forall q l0,
      fold_left (fun l0 (a : {k : kind & list (option (cval k))}) =>
        let 'existT _ k v := a in
        fold_left (fun l1 offset =>
          match nth (src + offset) v None with Some x => set_typed k l1 (size_ l + offset) (Some x) | None => l1 end)
          (seq 0 count) l0) q l0 =
      fold_left (fun l0 (a : {k : kind & list (option (cval k))}) =>
         fold_left (set_present (projT1 a) (projT2 a) src (size_ l)) (seq 0 count) l0) q l0).
    { induction q as [|[k v] q IH]; intros l0; cbn [fold_left]; auto. }
    rewrite EQ. apply P.
    + rewrite E1, app_length, repeat_length. lia.
    + intros j Hj. rewrite E1, app_nth2 by lia. rewrite nth_repeat_lt. dif.
  - rewrite E1. rewrite firstn_app, SZ, firstn_all, Nat.sub_diag. cbn [firstn].
    rewrite app_nil_r. f_equal.
    rewrite (skipn_all2 (contents l ++ repeat None count)) by (rewrite app_length, repeat_length; lia). apply app_nil_r.
Qed.

Lemma set_n_ok k l start xs : wf_list l -> start + length xs <= size_ l ->
  models (set_n k l start xs)
    (firstn start (contents l) ++ map (item_of_opt k) xs ++ skipn (start + length xs) (contents l)).
Proof.
  intros W H. unfold set_n.
  destruct (apply_ok k
    (fun v => fold_left (fun v '(i, x) => upd v (start + i) x) (combine (seq 0 (length xs)) xs) v)
    (fun v => fold_left (fun v '(i, x) => upd v (start + i) (item_of_opt k x)) (combine (seq 0 (length xs)) xs) v)
    l W) as [A B].
  - intros v. generalize (combine (seq 0 (length xs)) xs). intros q. revert v.
    induction q as [|[i x] q IH]; intros v; cbn [fold_left]; auto. rewrite IH. f_equal. apply map_upd.
  - split; [exact A|]. rewrite B. apply fold_upd_combine. rewrite <- (size_of_contents l W). exact H.
Qed.

Lemma replace_one_ok from to vs src count l : wf_list l -> to_ok to -> slice_wf vs -> src + count <= sl_size vs ->
  models (let '(dst, l) := remove_and_reserve l (range_opt from to) count in
    match sl_values vs with
    | [existT _ k v] => set_n k l dst (firstn count (skipn src v))
    | _ =>
        if forallb (fun x => match x with None => true | Some _ => false end) (slice_items vs)
        then set_missing_range l dst (dst + count)
        else fold_left (fun l offset => set_item l (dst + offset) (slice_at vs (src + offset)))
               (seq 0 count) l
    end)
    (py_assign (Some from) to (firstn count (skipn src (slice_items vs))) (contents l)).
Proof.
  intros W T WS H. unfold py_assign.
  destruct (reserve_ok l from to count W (to_ok_range _ _ T)) as (l' & gap & -> & G & Ha & W' & C).
  set (a := py_start (Some from) (contents l)) in *. set (b := py_stop to (contents l)) in *. clearbody a b.
  assert (SZ := size_of_contents l W). assert (SZ' := size_of_contents l' W'). assert (LI := slice_items_length vs).
  set (P := firstn a (contents l)) in *. set (Q := skipn (Nat.max a b) (contents l)) in *.
  assert (LP : length P = a) by (unfold P; rewrite firstn_length; lia).
  assert (LC : a + count <= length (contents l')) by (rewrite C, !app_length; lia).
  set (vals := firstn count (skipn src (slice_items vs))).
  assert (LV : length vals = count) by (unfold vals; rewrite firstn_length, skipn_length; lia).
  assert (FG := fill_gap P gap Q vals ltac:(lia)). rewrite <- C, LP, LV in FG.
  assert (D : models (if forallb (fun x : ditem => match x with None => true | Some _ => false end) (slice_items vs)
        then set_missing_range l' a (a + count)
        else fold_left (fun l offset => set_item l (a + offset) (slice_at vs (src + offset))) (seq 0 count) l')
        (P ++ vals ++ Q)).
  { destruct (forallb _ _) eqn:E.
    - destruct (set_missing_range_ok l' a (a + count) W') as (A & _ & B); [lia|]. split; [exact A|].
      rewrite B. rewrite <- FG. f_equal. f_equal. replace (a + count - a) with count by lia.
      apply (nth_ext_eq _ _ None); [rewrite repeat_length; lia|].
      intros j Hj. rewrite repeat_length in Hj. rewrite nth_repeat_lt. unfold vals. rewrite nth_firstn, nth_skipn.
      destruct (Nat.ltb_spec j count); [|lia].
      rewrite forallb_forall in E.
      assert (I : In (nth (src + j) (slice_items vs) None) (slice_items vs)) by (apply nth_In; lia).
      apply E in I. destruct (nth (src + j) (slice_items vs) None); [discriminate|reflexivity].
    - destruct (set_items_pass (fun o => slice_at vs (src + o)) a count 0 l' W') as [A B]; [lia|].
      split; [exact A|]. rewrite B. rewrite <- FG.
      apply (fold_upd_run (fun o => slice_at vs (src + o)) a count (contents l') vals); auto.
      intros i Hi. unfold vals. rewrite nth_firstn, nth_skipn, slice_items_nth.
      destruct (Nat.ltb_spec i count), (Nat.ltb_spec (src + i) (sl_size vs)); try lia. reflexivity. }
  destruct (sl_values vs) as [|[k v] [|? ?]] eqn:V; try exact D.
  destruct WS as [SL _]. rewrite V in SL. assert (SL1 : length v = sl_size vs) by (inversion SL; assumption). clear SL.
  assert (LX : length (firstn count (skipn src v)) = count) by (rewrite firstn_length, skipn_length; lia).
  generalize (set_n_ok k l' a (firstn count (skipn src v)) W').
  rewrite LX. intros M.
  assert (EV : map (item_of_opt k) (firstn count (skipn src v)) = vals).
  { unfold vals. rewrite (single_slice_items k v vs V SL1), <- firstn_map. f_equal.
    clear. revert v. induction src; intros [|x v]; cbn; auto. }
  rewrite EV, FG in M. apply M. lia.
Qed.
