(** Histories of list operations of a bag, and batch reads, against plain sequences. *)
From Coq Require Import NArith ZArith List Bool Arith Lia ZifyBool.
From Verif Require Import ObjectIdModel ItemModel DataListModel DataListSpec ListRunSpec DataListProofs DataListOpsProofs.
Import ListNotations.
Local Open Scope nat_scope.

Definition refines (r : store * bool) (q : lists_spec * bool) : Prop := repr (fst r) (fst q) /\ snd r = snd q.

Lemma single_ok f g id s p : (forall l, wf_list l -> models (f l) (g (contents l))) -> repr s p ->
  refines (single f id s) (on1 id g p).
Proof.
  intros F R. unfold single, on1, refines. destruct (is_list id); cbn [fst snd]; auto. split; auto.
  destruct (repr_get s p id R) as [W C]. apply repr_set; auto. rewrite <- C. auto.
Qed.

Lemma step_ok s p o : op_ok o -> repr s p -> refines (list_step s o) (spec_step p o).
Proof.
  intros O R. destruct o; cbn [list_step spec_step op_ok] in *.
  - apply single_ok; auto. intros l W. now apply set_in_list_ok.
  - apply single_ok; auto. intros l W. now apply append_ok.
  - apply single_ok; auto. intros l W. now apply pop_ok.
  - apply single_ok; auto. intros l W. now apply extend_list_ok.
  - destruct O. apply single_ok; auto. intros l W. apply replace_in_list_ok; auto. now apply to_ok_range.
  - apply single_ok; auto. intros l W. apply remove_range_ok; auto. now apply to_ok_range.
  - unfold set_in_lists. destruct (Nat.eqb_spec (length lists) (sl_size vs)) as [E1|]; cbn [negb orb andb]; [|split; auto].
    destruct (Nat.eqb_spec (length lists) (length indices)) as [E2|]; cbn [negb]; [|split; auto].
    rewrite with_index_eq. apply (for_each_list__ok _ _ _ s p (length lists)); auto.
    { now apply where_index_length. }
    intros i l Hi W. unfold put_at. rewrite (size_of_contents l W), norm_index_py. fold (idx indices i). 
    change (index_at indices i) with (idx indices i).
    destruct (py_index (idx indices i) (contents l)) as [pos|] eqn:E; [|now split].
    apply set_one_ok; auto. rewrite (size_of_contents l W). eapply py_index_lt; eauto.
  - unfold append_to_lists. destruct (Nat.eqb_spec (length lists) (sl_size vs)) as [E1|]; cbn [negb]; [|split; auto].
    apply (for_each_list__ok _ _ _ s p (length lists)); auto.
    intros i l Hi W. now apply append_one_ok.
  - unfold pop_from_lists. destruct (Nat.eqb_spec (length lists) (length indices)) as [E2|]; cbn [negb]; [|split; auto].
    rewrite with_index_eq.
    generalize (for_each_list_ok (fun i l => pop_from_list l (index_at indices i)) (fun i => item_at (idx indices i))
      (fun i => drop_at (idx indices i)) (where_index lists indices) s p (length lists)).
    destruct (for_each_list _ _ s) as [[out s'] err]. intros G.
    destruct G as (_ & A & B); auto.
    + now apply where_index_length.
    + intros i l Hi W. now apply pop_ok.
    + now split.
  - unfold remove_in_lists. destruct (Nat.eqb_spec (length lists) (length indices)) as [E2|]; cbn [negb]; [|split; auto].
    rewrite with_index_eq. apply (for_each_list__ok _ _ _ s p (length lists)); auto.
    { now apply where_index_length. }
    intros i l Hi W. now apply remove_index_ok.
  - apply (for_each_list__ok _ _ _ s p (length lists)); auto.
    intros i l Hi W. apply remove_range_ok; auto. now apply to_ok_range.
  - destruct O as [WS SP]. apply (for_each_list__ok _ _ _ s p (length lists)); auto.
    intros i l Hi W. destruct (SP i Hi) as [S1 S2]. unfold part. rewrite Nat.add_1_r.
    apply extend_one_ok; auto. lia.
  - destruct O as (T & WS & SP). apply (for_each_list__ok _ _ _ s p (length lists)); auto.
    intros i l Hi W. destruct (SP i Hi) as [S1 S2]. unfold part. rewrite Nat.add_1_r.
    apply replace_one_ok; auto. lia.
Qed.

Lemma run_ok ops : forall s p, Forall op_ok ops -> repr s p -> repr (list_run ops s) (spec_run ops p).
Proof.
  induction ops as [|o ops IH]; intros s p O R; cbn; auto. inversion O; subst. apply IH; auto.
  now apply (step_ok s p o).
Qed.

(** ** What a batch pops *)
Lemma popped_length lists : forall a indices p, length (popped a lists indices p) = length lists.
Proof. induction lists as [|[id|] ls IH]; intros; cbn; auto. destruct (is_list id); cbn; auto. Qed.

Lemma popped_builder indices lists : forall a p b, a + length lists = length b ->
  (forall j, a <= j -> nth j b None = None) ->
  build (fold_left (fun b '(i, x) => insert_if_not_set b i x)
    (outputs (fun i => item_at (idx indices i)) (fun i => drop_at (idx indices i)) a lists p) b) =
  firstn a (build b) ++ popped a lists indices p.
Proof.
  induction lists as [|[id|] ls IH]; intros a p b L U; cbn [outputs popped length] in *.
  - cbn. rewrite app_nil_r, firstn_all2; auto. rewrite build_length. lia.
  - destruct (is_list id).
    + cbn [fold_left]. rewrite IH.
      * assert (H : a < length b) by lia.
        replace (S a) with (a + 1) by lia. 
        rewrite <- (firstn_skipn a (firstn (a + 1) _)), firstn_firstn.
        replace (Nat.min a (a + 1)) with a by lia. rewrite <- app_assoc. f_equal.
        -- apply (nth_ext_eq _ _ None).
           ++ rewrite !firstn_length, !build_length, length_insert_if. reflexivity.
           ++ intros j Hj. rewrite !nth_firstn, !build_nth, nth_insert_if.
              rewrite firstn_length in Hj.
              destruct (Nat.ltb_spec j a); [|lia]. destruct (Nat.eqb_spec j a); [lia|]. reflexivity.
        -- rewrite skipn_firstn_comm. replace (a + 1 - a) with 1 by lia.
           destruct (skipn a (build (insert_if_not_set b a (item_at (idx indices a) (seq_of p id))))) as [|y ys] eqn:E.
           { exfalso. apply (f_equal (@length _)) in E. rewrite skipn_length, build_length, length_insert_if in E.
             cbn in E. lia. }
           cbn [firstn app]. f_equal.
           assert (N : nth a (build (insert_if_not_set b a (item_at (idx indices a) (seq_of p id)))) None = y).
           { replace a with (a + 0) at 1 by lia. rewrite <- nth_skipn, E. reflexivity. }
           rewrite <- N, build_nth, nth_insert_if, Nat.eqb_refl.
           destruct (Nat.ltb_spec a (length b)); [|lia]. cbn [andb]. rewrite (U a) by lia. reflexivity.
      * rewrite length_insert_if. lia.
      * intros j Hj. rewrite nth_insert_if. destruct (Nat.eqb_spec j a); [lia|]. cbn [andb]. apply U. lia.
    + rewrite IH; [|lia|intros j Hj; apply U; lia].
      replace (S a) with (a + 1) by lia.
      rewrite <- (firstn_skipn a (firstn (a + 1) _)), firstn_firstn.
      replace (Nat.min a (a + 1)) with a by lia. rewrite <- app_assoc. f_equal.
      rewrite skipn_firstn_comm. replace (a + 1 - a) with 1 by lia.
      destruct (skipn a (build b)) as [|y ys] eqn:E.
      { exfalso. apply (f_equal (@length _)) in E. rewrite skipn_length, build_length in E. cbn in E. lia. }
      cbn [firstn app]. f_equal. transitivity (nth a (build b) None).
      * replace a with (a + 0) at 1 by lia. rewrite <- nth_skipn, E. reflexivity.
      * rewrite build_nth, U by lia. reflexivity.
  - rewrite IH; [|lia|intros j Hj; apply U; lia].
      replace (S a) with (a + 1) by lia.
      rewrite <- (firstn_skipn a (firstn (a + 1) _)), firstn_firstn.
      replace (Nat.min a (a + 1)) with a by lia. rewrite <- app_assoc. f_equal.
      rewrite skipn_firstn_comm. replace (a + 1 - a) with 1 by lia.
      destruct (skipn a (build b)) as [|y ys] eqn:E.
      { exfalso. apply (f_equal (@length _)) in E. rewrite skipn_length, build_length in E. cbn in E. lia. }
      cbn [firstn app]. f_equal. transitivity (nth a (build b) None).
      * replace a with (a + 0) at 1 by lia. rewrite <- nth_skipn, E. reflexivity.
      * rewrite build_nth, U by lia. reflexivity.
Qed.

Lemma pop_lists_ok lists indices s p : repr s p -> length lists = length indices ->
  fst (fst (pop_from_lists lists indices s)) = popped 0 (where_index lists indices) indices p.
Proof.
  intros R E. unfold pop_from_lists. rewrite E, Nat.eqb_refl. cbn [negb]. rewrite with_index_eq.
  generalize (for_each_list_ok (fun i l => pop_from_list l (index_at indices i)) (fun i => item_at (idx indices i))
      (fun i => drop_at (idx indices i)) (where_index lists indices) s p (length lists)).
  destruct (for_each_list _ _ s) as [[out s'] err]. intros G.
  destruct G as (A & _ & _); auto.
  - now apply where_index_length.
  - intros i l Hi W. now apply pop_ok.
  - cbn [fst]. subst out. rewrite popped_builder; [reflexivity| |intros; apply new_builder_nth].
    rewrite where_index_length by exact E. unfold new_builder. rewrite repeat_length. lia.
Qed.

(** ** Batch reads *)
Lemma get_lists_ok lists indices s p : repr s p -> length lists = length indices ->
  get_from_lists lists indices s =
  (map (fun '(i, id) => match id with
                        | Some id => if is_list id then item_at (idx indices i) (seq_of p id) else None
                        | None => None
                        end) (combine (seq 0 (length lists)) (where_index lists indices)),
   has_non_list (where_index lists indices)).
Proof.
  intros R E. unfold get_from_lists. rewrite E, Nat.eqb_refl. cbn [negb]. rewrite with_index_eq, <- E.
  assert (LW := where_index_length lists indices E).
  set (ls := where_index lists indices) in *. rewrite <- LW. clearbody ls. clear E LW lists.
  set (g := fun '(b, err) '(offset, id) => _).
  set (h := fun '(i, id) => _).
  assert (G : forall (q : list (option ObjectId)) a (b : builder) err, a + length q <= length b -> (forall j, a <= j -> nth j b None = None) ->
    exists b', fold_left g (combine (seq a (length q)) q) (b, err) = (b', err || has_non_list q) /\
      length b' = length b /\
      forall j, slot_value (nth j b' None) =
        if (a <=? j) && (j <? a + length q) then h (j, nth (j - a) q None) else slot_value (nth j b None)).
  { induction q as [|id q IH]; intros a b err L U; cbn [length seq combine fold_left].
    - exists b. rewrite orb_false_r. split; [reflexivity|]. split; [reflexivity|]. intros j.
      destruct (Nat.leb_spec a j), (Nat.ltb_spec j (a + 0)); cbn [andb]; auto; lia.
    - cbn [length] in L.
      assert (S1 : exists b1, g (b, err) (a, id) = (b1, err || has_non_list [id]) /\ length b1 = length b /\
        (forall j, a < j -> nth j b1 None = None) /\
        (forall j, slot_value (nth j b1 None) = if j =? a then h (a, id) else slot_value (nth j b None))).
      { unfold g, h. destruct id as [id|]; cbn [has_non_list existsb].
        - destruct (is_list id); cbn [negb orb]; rewrite ?orb_false_r, ?orb_true_r.
          + specialize (R id). unfold seq_of. destruct (s id) as [l|], (p id) as [c|]; try contradiction.
            * destruct R as [W C]. subst c. rewrite (size_of_contents l W), norm_index_py. unfold item_at.
              change (index_at indices a) with (idx indices a).
              destruct (py_index (idx indices a) (contents l)) as [pos|].
              -- eexists. split; [reflexivity|]. split; [apply length_insert_if|]. split.
                 ++ intros j Hj. rewrite nth_insert_if. destruct (Nat.eqb_spec j a); [lia|]. apply U. lia.
                 ++ intros j. rewrite nth_insert_if. destruct (Nat.eqb_spec j a) as [->|]; [|reflexivity].
                    destruct (Nat.ltb_spec a (length b)); [|lia]. cbn [andb]. rewrite (U a) by lia.
                    cbn. apply dl_get_contents.
              -- eexists. split; [reflexivity|]. split; [reflexivity|]. split; [intros; apply U; lia|].
                 intros j. destruct (Nat.eqb_spec j a) as [->|]; [|reflexivity]. now rewrite U by lia.
            * eexists. split; [reflexivity|]. split; [reflexivity|]. split; [intros; apply U; lia|].
              intros j. destruct (Nat.eqb_spec j a) as [->|]; [|reflexivity]. rewrite U by lia.
              unfold item_at. destruct (py_index (idx indices a) []) as [[|?]|]; reflexivity.
          + eexists. split; [reflexivity|]. split; [reflexivity|]. split; [intros; apply U; lia|].
            intros j. destruct (Nat.eqb_spec j a) as [->|]; [|reflexivity]. now rewrite U by lia.
        - rewrite orb_false_r. eexists. split; [reflexivity|]. split; [reflexivity|]. split; [intros; apply U; lia|].
          intros j. destruct (Nat.eqb_spec j a) as [->|]; [|reflexivity]. now rewrite U by lia. }
      destruct S1 as (b1 & -> & L1 & U1 & N1).
      destruct (IH (S a) b1 (err || has_non_list [id])) as (b' & -> & L' & N'); [lia|intros; apply U1; lia|].
      exists b'. split; [|split; [lia|]].
      + f_equal. unfold has_non_list. cbn [existsb]. now rewrite orb_false_r, orb_assoc.
      + intros j. rewrite N', N1.
        destruct (Nat.leb_spec (S a) j), (Nat.ltb_spec j (S a + length q)), (Nat.leb_spec a j),
          (Nat.ltb_spec j (a + S (length q))), (Nat.eqb_spec j a); cbn [andb]; auto; try lia.
        * replace (j - a) with (S (j - S a)) by lia. reflexivity.
        * subst j. now rewrite Nat.sub_diag. }
  destruct (G ls 0 (new_builder (length ls)) false) as (b' & -> & L' & N').
  { unfold new_builder. now rewrite repeat_length. }
  { intros. apply new_builder_nth. }
  f_equal. unfold new_builder in L'. rewrite repeat_length in L'. apply (nth_ext_eq _ _ None).
  - rewrite build_length, map_length, combine_length, seq_length. lia.
  - intros j Hj. rewrite build_length in Hj. rewrite build_nth, N'. cbn [Nat.leb Nat.add].
    destruct (Nat.ltb_spec j (length ls)); [|lia]. cbn [andb]. rewrite Nat.sub_0_r.
    rewrite (nth_indep _ None (h (0, None))) by (rewrite map_length, combine_length, seq_length; lia).
    rewrite map_nth, combine_nth by (rewrite seq_length; reflexivity). rewrite seq_nth by lia. reflexivity.
Qed.

(** ** Exploding a batch *)
Section Explode.
Context (from : Z) (to : option Z) (s : store) (p : lists_spec).
Hypothesis (R : repr s p) (T : to_ok to).
Local Notation slice_of := (slice_of from to p).

Fixpoint sums {A} (c : nat) (parts : list (list A)) : list nat :=
  match parts with [] => [c] | x :: r => c :: sums (c + length x) r end.
Definition ptr_of (id : option ObjectId) : option datalist :=
  match id with Some id => if is_list id then s id else None | None => None end.
Definition slice_of_ptr (o : option datalist) : list ditem :=
  match o with Some l => py_slice (Some from) to (contents l) | None => [] end.

Lemma py_slice_nil : py_slice (Some from) to (@nil ditem) = [].
Proof. unfold py_slice. now rewrite skipn_nil, firstn_nil. Qed.

Lemma slice_of_ptr_of id : slice_of_ptr (ptr_of id) = slice_of id.
Proof.
  destruct id as [id|]; [|reflexivity]. cbn. destruct (is_list id); [|reflexivity].
  specialize (R id). unfold seq_of. destruct (s id) as [l|], (p id) as [c|]; try contradiction.
  - destruct R as [_ C]. cbn. now rewrite C.
  - symmetry. apply py_slice_nil.
Qed.
Lemma ptr_wf id l : ptr_of id = Some l -> wf_list l.
Proof.
  destruct id as [id|]; [|discriminate]. cbn. destruct (is_list id); [|discriminate]. intros E.
  specialize (R id). rewrite E in R. destruct (p id); [apply R | contradiction].
Qed.
Lemma py_slice_length {A} (l : list A) :
  py_stop to l <= length l -> length (py_slice (Some from) to l) = py_stop to l - py_start (Some from) l.
Proof. intros H. unfold py_slice. rewrite firstn_length, skipn_length. lia. Qed.

Definition g1 : list (option datalist) * list nat * nat * bool -> option ObjectId -> list (option datalist) * list nat * nat * bool :=
  fun '(ptrs, splits, cum, err) id =>
      match id with
      | None => (ptrs ++ [None], splits ++ [cum], cum, err)
      | Some id =>
          if is_list id
          then match s id with
               | None => (ptrs ++ [None], splits ++ [cum], cum, err)
               | Some l =>
                   let '(from, to) := calculate (range_opt from to) (size_ l) in
                   let cum := cum + Z.to_nat (Z.max 0 (to - from)) in
                   (ptrs ++ [Some l], splits ++ [cum], cum, err)
               end
          else (ptrs ++ [None], splits ++ [cum], cum, true)
      end.

Lemma g1_step ptrs splits cum err id :
  g1 (ptrs, splits, cum, err) id =
  (ptrs ++ [ptr_of id], splits ++ [cum + length (slice_of id)], cum + length (slice_of id), err || has_non_list [id]).
Proof.
  unfold g1, has_non_list. rewrite <- slice_of_ptr_of.
  destruct id as [id|]; cbn [ptr_of existsb slice_of_ptr length]; [|now rewrite Nat.add_0_r, orb_false_r].
  destruct (is_list id) eqn:L; cbn [negb orb slice_of_ptr length]; [|now rewrite Nat.add_0_r, orb_true_r].
  rewrite orb_false_r. destruct (s id) as [l|] eqn:E; cbn [slice_of_ptr length]; [|now rewrite Nat.add_0_r].
  assert (W : wf_list l) by (apply (ptr_wf (Some id)); cbn; now rewrite L).
  rewrite (size_of_contents l W).
  destruct (calculate_py from to (contents l) (to_ok_range _ _ T)) as (-> & B1 & B2).
  rewrite py_slice_length by exact B2.
  replace (Z.to_nat (Z.max 0 (Z.of_nat (py_stop to (contents l)) - Z.of_nat (py_start (Some from) (contents l)))))
    with (py_stop to (contents l) - py_start (Some from) (contents l)) by lia.
  reflexivity.
Qed.

Lemma g1_fold ls : forall ptrs sp cum err,
  fold_left g1 ls (ptrs, sp ++ [cum], cum, err) =
  (ptrs ++ map ptr_of ls, sp ++ sums cum (map slice_of ls), cum + length (concat (map slice_of ls)), err || has_non_list ls).
Proof.
  induction ls as [|id ls IH]; intros ptrs sp cum err; cbn [fold_left map sums concat].
  - rewrite app_nil_r, orb_false_r. cbn. now rewrite Nat.add_0_r.
  - rewrite g1_step. rewrite IH. rewrite <- !app_assoc. cbn [app]. rewrite app_length, Nat.add_assoc.
    unfold has_non_list. cbn [existsb]. rewrite orb_false_r, orb_assoc. reflexivity.
Qed.

Definition g2 (splits : list nat) : builder -> nat * option datalist -> builder :=
  fun b '(i, q) =>
      match q with
      | None => b
      | Some l =>
          let '(from, to) := calculate (range_opt from to) (size_ l) in
          if (from <? to)%Z then add_to_slice b (nth i splits 0) (Z.to_nat from) (Z.to_nat to) l else b
      end.

Lemma g2_step splits b i q c : (forall l, q = Some l -> wf_list l) -> nth i splits 0 = c ->
  c + length (slice_of_ptr q) <= length b -> (forall j, c <= j -> nth j b None = None) ->
  let b' := g2 splits b (i, q) in
  length b' = length b /\ (forall j, c + length (slice_of_ptr q) <= j -> nth j b' None = None) /\
  firstn (c + length (slice_of_ptr q)) (build b') = firstn c (build b) ++ slice_of_ptr q.
Proof.
  intros W N L U. unfold g2. destruct q as [l|]; cbn [slice_of_ptr length] in *.
  2:{ rewrite Nat.add_0_r, app_nil_r. auto. }
  specialize (W l eq_refl). rewrite (size_of_contents l W).
  destruct (calculate_py from to (contents l) (to_ok_range _ _ T)) as (-> & B1 & B2).
  rewrite py_slice_length in * by exact B2. unfold py_slice.
  set (a := py_start (Some from) (contents l)) in *. set (e := py_stop to (contents l)) in *. clearbody a e.
  rewrite !Nat2Z.id, N. destruct (Z.ltb_spec (Z.of_nat a) (Z.of_nat e)).
  - split; [apply add_to_slice_length|]. split.
    + intros j Hj. rewrite add_to_slice_outside; auto; try lia.
      * apply U. lia.
      * intros q Hq. apply U. lia.
    + apply (nth_ext_eq _ _ None).
      * rewrite app_length, !firstn_length, skipn_length, !build_length, add_to_slice_length. lia.
      * intros j Hj. rewrite firstn_length in Hj. rewrite nth_firstn, build_nth, add_to_slice_nth; auto; [|intros; apply U; lia].
        assert (LF : length (firstn c (build b)) = c) by (rewrite firstn_length, build_length; lia).
        destruct (Nat.ltb_spec j (c + (e - a))), (Nat.leb_spec c j); cbn [andb]; try lia.
        -- rewrite app_nth2 by lia. rewrite nth_firstn, nth_skipn, LF.
           destruct (Nat.ltb_spec (j - c) (e - a)); [|lia]. reflexivity.
        -- rewrite app_nth1 by lia. rewrite nth_firstn, build_nth. destruct (Nat.ltb_spec j c); [reflexivity|lia].
  - replace (e - a) with 0 by lia. rewrite Nat.add_0_r. cbn [firstn]. rewrite app_nil_r.
    split; [reflexivity|]. split; [exact U|reflexivity].
Qed.

Lemma g2_fold splits qs : forall a c b, (forall q l, In q qs -> q = Some l -> wf_list l) ->
  skipn a splits = sums c (map slice_of_ptr qs) -> length b = c + length (concat (map slice_of_ptr qs)) ->
  (forall j, c <= j -> nth j b None = None) ->
  build (fold_left (g2 splits) (combine (seq a (length qs)) qs) b) =
  firstn c (build b) ++ concat (map slice_of_ptr qs).
Proof.
  induction qs as [|q qs IH]; intros a c b W S L U; cbn [length seq combine fold_left map concat] in *.
  - rewrite app_nil_r, firstn_all2; auto. rewrite build_length. lia.
  - cbn [sums] in S. rewrite app_length in L.
    assert (N : nth a splits 0 = c).
    { replace a with (a + 0) by lia. rewrite <- nth_skipn, S. reflexivity. }
    destruct (g2_step splits b a q c) as (A & B & C); auto; [|lia|].
    { intros l. apply W. now left. }
    rewrite (IH (Datatypes.S a) (c + length (slice_of_ptr q))).
    + rewrite C, <- app_assoc. reflexivity.
    + intros q' l I. apply W. now right.
    + replace (Datatypes.S a) with (1 + a) by lia. rewrite <- skipn_skipn, S. reflexivity.
    + lia.
    + exact B.
Qed.

Lemma explode_lists_ok lists :
  explode_lists lists (range_opt from to) s =
  (concat (map slice_of lists), sums 0 (map slice_of lists), has_non_list lists).
Proof.
  unfold explode_lists.
  change (fold_left _ lists ([], [0], 0, false)) with (fold_left g1 lists ([], [] ++ [0], 0, false)).
  rewrite g1_fold. cbn [app Nat.add orb].
  change (fold_left _ (combine (seq 0 (length (map ptr_of lists))) (map ptr_of lists)) ?b) with
    (fold_left (g2 (sums 0 (map slice_of lists))) (combine (seq 0 (length (map ptr_of lists))) (map ptr_of lists)) b).
  assert (E : map slice_of_ptr (map ptr_of lists) = map slice_of lists).
  { rewrite map_map. apply map_ext. apply slice_of_ptr_of. }
  rewrite (g2_fold _ _ 0 0).
  - cbn [firstn app]. now rewrite E.
  - intros q l I ->. apply in_map_iff in I. destruct I as (id & I & _). exact (ptr_wf id l I).
  - cbn [skipn]. now rewrite E.
  - rewrite E. unfold new_builder. now rewrite repeat_length.
  - intros. apply new_builder_nth.
Qed.
End Explode.

Lemma sums_nth {A} (parts : list (list A)) : forall c i, i <= length parts ->
  nth i (sums c parts) 0 = c + length (concat (firstn i parts)).
Proof.
  induction parts as [|x r IH]; intros c i H; cbn [length] in H.
  - replace i with 0 by lia. cbn. lia.
  - destruct i; cbn [sums nth firstn concat]; [cbn; lia|]. rewrite IH by lia. rewrite app_length. lia.
Qed.
Lemma sums_length {A} (parts : list (list A)) : forall c, length (sums c parts) = S (length parts).
Proof. induction parts; intros; cbn; auto. Qed.

(** ** Sizes *)
Lemma sizes_ok lists z s p : repr s p ->
  get_list_sizes lists z s =
  (map (fun id => match id with
                  | None => None
                  | Some id =>
                      match (if is_list id then p id else None) with
                      | Some l => Some (length l)
                      | None => if z then Some 0 else None
                      end
                  end) lists, has_non_list lists).
Proof.
  intros R. unfold get_list_sizes. f_equal. apply map_ext. intros [id|]; auto. destruct (is_list id); auto.
  specialize (R id). destruct (s id), (p id); try contradiction; auto.
  destruct R as [W C]. now rewrite (size_of_contents _ W), C.
Qed.

(** ** One DataList *)
Lemma of_slice_ok s from to : slice_wf s -> from <= to <= sl_size s ->
  models (of_slice s from to) (firstn (to - from) (skipn from (slice_items s))).
Proof.
  intros [SL _] H. unfold of_slice.
  assert (E : forall j, j < to - from ->
    nth j (firstn (to - from) (skipn from (slice_items s))) None = slice_at s (from + j)).
  { intros j Hj. rewrite nth_firstn, nth_skipn, slice_items_nth.
    destruct (Nat.ltb_spec j (to - from)), (Nat.ltb_spec (from + j) (sl_size s)); auto; lia. }
  assert (L : length (firstn (to - from) (skipn from (slice_items s))) = to - from)
    by (rewrite firstn_length, skipn_length, slice_items_length; lia).
  assert (M : forall B (g : nat -> B) d j, j < to - from -> nth j (map (fun i => g (from + i)) (seq 0 (to - from))) d = g (from + j)).
  { intros B g d j Hj. rewrite (nth_indep _ d (g (from + 0))) by (rewrite map_length, seq_length; lia).
    rewrite (map_nth (fun i => g (from + i))). now rewrite seq_nth by lia. }
  destruct (sl_values s) as [|[k v] [|a2 r]] eqn:V; unfold models, wf_list, contents; cbn [data_ size_].
  - split; auto. apply (nth_ext_eq _ _ None); [rewrite repeat_length; lia|].
    intros j Hj. rewrite repeat_length in Hj. rewrite E by lia. rewrite nth_repeat_lt.
    unfold slice_at. rewrite V. destruct (j <? to - from); reflexivity.
  - split; [now rewrite map_length, seq_length|].
    apply (nth_ext_eq _ _ None); [rewrite !map_length, seq_length; lia|].
    intros j Hj. rewrite !map_length, seq_length in Hj. rewrite E by lia. rewrite map_item_nth.
    rewrite (M _ (fun i => nth i v None) None j) by lia. symmetry. now apply single_items.
  - split; [now rewrite map_length, seq_length|].
    apply (nth_ext_eq _ _ None); [rewrite !map_length, seq_length; lia|].
    intros j Hj. rewrite !map_length, seq_length in Hj. rewrite E by lia.
    now rewrite (M _ (slice_at s) None j) by lia.
Qed.

Lemma dl_step_ok l c o : models l c -> dl_ok c o -> models (dl_step l o) (dl_spec c o).
Proof.
  intros [W C] O. subst c. assert (SZ := size_of_contents l W). unfold models.
  destruct o; cbn [dl_step dl_spec dl_ok] in *.
  - rewrite <- upd_app by exact O. now apply set_item_ok.
  - rewrite <- upd_app by exact O. destruct (set_to_missing_ok l i W) as (A & _ & B). auto.
  - destruct (set_missing_range_ok l from to W) as (A & _ & B); [lia|]. auto.
  - apply set_n_ok; auto. lia.
  - apply insert_item_ok; auto. lia.
  - destruct (insert_missing_ok l from count W) as (A & _ & B); [lia|]. auto.
  - destruct (remove_ok l from count W) as (A & _ & B); [lia|]. auto.
  - destruct (resize_ok l n W) as (A & _ & B). auto.
  - now apply of_slice_ok.
Qed.

Lemma dl_run_ok ops : dl_all_ok [] ops -> models (dl_run ops) (fold_left dl_spec ops []).
Proof.
  unfold dl_run. assert (M : models empty_list []) by now split.
  revert M. generalize empty_list (@nil ditem). induction ops as [|o ops IH]; intros l c M O; cbn in *; auto.
  apply IH; [|apply O]. apply dl_step_ok; [exact M | apply O].
Qed.

(** ** Reached states *)
Lemma repr_empty : repr no_lists no_seqs.
Proof. intros id. exact I. Qed.
Lemma reached_ok ops : Forall op_ok ops -> repr (list_run ops no_lists) (spec_run ops no_seqs).
Proof. intros O. apply run_ok; auto. apply repr_empty. Qed.
Lemma history_contents ops : Forall op_ok ops ->
  forall id, option_map contents (list_run ops no_lists id) = spec_run ops no_seqs id.
Proof.
  intros O id. generalize (reached_ok ops O id). destruct (list_run ops no_lists id), (spec_run ops no_seqs id);
    try contradiction; auto. intros [_ <-]. reflexivity.
Qed.

Lemma single_other f id s j : oid_eqb j id = false -> fst (single f id s) j = s j.
Proof. intros N. unfold single, st_set. destruct (is_list id); cbn; auto. now rewrite N. Qed.
Lemma for_each_other {R} (f : nat -> datalist -> R * datalist) lists s j : named j lists = false ->
  (let '(_, s', _) := for_each_list f lists s in s' j) = s j.
Proof.
  intros N. unfold for_each_list. set (g := fun '(out, s, err) '(offset, id) => _).
  assert (G : forall ls a (x : list (nat * R) * store * bool), named j ls = false ->
    snd (fst (fold_left g (combine (seq a (length ls)) ls) x)) j = snd (fst x) j).
  { clear. induction ls as [|id ls IH]; intros a [[out s] err] N; cbn [length seq combine fold_left]; auto.
    cbn in N. apply orb_false_iff in N. destruct N as [N1 N2]. rewrite IH by exact N2.
    unfold g. destruct id as [id|]; auto. destruct (is_list id); auto. destruct (f a (st_get s id)) as [r l].
    cbn. unfold st_set. now rewrite N1. }
  specialize (G lists 0 ([], s, false) N). now destruct (fold_left g _ _) as [[? ?] ?].
Qed.
Lemma for_each__other f lists s j : named j lists = false -> fst (for_each_list_ f lists s) j = s j.
Proof.
  intros N. unfold for_each_list_. generalize (for_each_other (fun i l => (tt, f i l)) lists s j N).
  now destruct (for_each_list _ lists s) as [[? ?] ?].
Qed.
Lemma named_where j lists : forall indices, named j lists = false -> named j (with_index lists indices) = false.
Proof.
  induction lists as [|id ls IH]; intros [|i indices] N; cbn in *; auto.
  apply orb_false_iff in N. destruct N as [N1 N2]. apply orb_false_iff. split; [|now apply IH].
  destruct i; auto.
Qed.
Lemma step_other s o j : named j (names o) = false -> fst (list_step s o) j = s j.
Proof.
  intros N. destruct o; cbn [names list_step] in *;
    try (apply single_other; cbn in N; rewrite orb_false_r in N; exact N); try (apply for_each__other; exact N).
  - unfold set_in_lists. destruct (_ || _)%bool; auto. apply for_each__other. now apply named_where.
  - unfold append_to_lists. destruct (negb _); auto. now apply for_each__other.
  - unfold pop_from_lists. destruct (negb _); auto.
    generalize (for_each_other (fun i l => pop_from_list l (index_at indices i)) (with_index lists indices) s j
      (named_where j lists indices N)).
    now destruct (for_each_list _ _ s) as [[? ?] ?].
  - unfold remove_in_lists. destruct (negb _); auto. apply for_each__other. now apply named_where.
Qed.

(** ** Python's assignment, item by item *)
Lemma py_assign_pointwise (l vs : list ditem) from to :
  let a := py_start (Some from) l in
  let b := Nat.max a (py_stop to l) in
  let l' := py_assign (Some from) to vs l in
  length l' = length l - (b - a) + length vs /\
  (forall i, i < a -> nth i l' None = nth i l None) /\
  (forall i, i < length vs -> nth (a + i) l' None = nth i vs None) /\
  (forall i, b <= i -> nth (i - (b - a) + length vs) l' None = nth i l None).
Proof.
  cbv zeta. unfold py_assign.
  assert (A : py_start (Some from) l <= length l).
  { unfold py_start, py_bound. destruct (Z.ltb_spec from 0); lia. }
  assert (B : py_stop to l <= length l).
  { unfold py_stop, py_bound. destruct to as [t|]; [destruct (Z.ltb_spec t 0)|]; lia. }
  set (a := py_start (Some from) l) in *. set (e := py_stop to l) in *. clearbody a e.
  set (b := Nat.max a e) in *. assert (AB : a <= b <= length l) by lia. clearbody b.
  assert (LF : length (firstn a l) = a) by (rewrite firstn_length; lia).
  split; [rewrite !app_length, LF, skipn_length; lia|]. split; [|split].
  - intros i Hi. rewrite app_nth1 by lia. rewrite nth_firstn. destruct (Nat.ltb_spec i a); [reflexivity|lia].
  - intros i Hi. rewrite app_nth2, app_nth1 by lia. f_equal. lia.
  - intros i Hi. rewrite !app_nth2 by lia. rewrite nth_skipn. f_equal. lia.
Qed.
