(** Properties C10, C11: Koda lists. *)
From Coq Require Import NArith ZArith List Bool Arith.
From Verif Require Import ObjectIdModel ItemModel DataListModel DataListSpec ListRunSpec
  DataListProofs DataListOpsProofs DataListRunProofs.
Import ListNotations.
Local Open Scope nat_scope.

(** ** C10: a list is a plain sequence *)

(** Any history of operations of one list object, whatever the types of the items:
    reading an item gives the item of the sequence, and the sizes agree. *)
Theorem C10_one_list : forall ops, dl_all_ok [] ops ->
  let l := dl_run ops in
  let spec := fold_left dl_spec ops [] in
  size_ l = length spec /\ forall i, dl_get l i = nth i spec None.
Proof.
  intros ops O. destruct (dl_run_ok ops O) as [W C]. cbv zeta. rewrite <- C. split.
  - exact (size_of_contents _ W).
  - intros i. apply dl_get_contents.
Qed.
Print Assumptions C10_one_list.

(** Any history of single and batch operations of a bag leaves every list with the
    items an ordinary sequence has after the same operations. *)
Theorem C10_history : forall ops, Forall op_ok ops ->
  forall id, option_map contents (list_run ops no_lists id) = spec_run ops no_seqs id.
Proof. exact history_contents. Qed.
Print Assumptions C10_history.

(** Every way to read gives these items: one item, one item of each of several
    lists, sizes, *)
Theorem C10_read_one : forall ops id i, Forall op_ok ops ->
  get_from_list (st_get (list_run ops no_lists) id) i = item_at i (seq_of (spec_run ops no_seqs) id).
Proof.
  intros ops id i O. destruct (repr_get _ _ id (reached_ok ops O)) as [W C].
  rewrite <- C. now apply get_from_list_ok.
Qed.
Print Assumptions C10_read_one.

Theorem C10_read_batch : forall ops lists indices, Forall op_ok ops -> length lists = length indices ->
  get_from_lists lists indices (list_run ops no_lists) =
  (map (fun '(i, id) =>
          match id with
          | Some id => if is_list id then item_at (idx indices i) (seq_of (spec_run ops no_seqs) id) else None
          | None => None
          end) (combine (seq 0 (length lists)) (where_index lists indices)),
   has_non_list (where_index lists indices)).
Proof. intros. apply get_lists_ok; auto. now apply reached_ok. Qed.
Print Assumptions C10_read_batch.

Theorem C10_sizes : forall ops lists zero_for_unset, Forall op_ok ops ->
  get_list_sizes lists zero_for_unset (list_run ops no_lists) =
  (map (fun id =>
          match id with
          | None => None
          | Some id =>
              match (if is_list id then spec_run ops no_seqs id else None) with
              | Some l => Some (length l)
              | None => if zero_for_unset then Some 0 else None
              end
          end) lists,
   has_non_list lists).
Proof. intros. apply sizes_ok. now apply reached_ok. Qed.
Print Assumptions C10_sizes.

(** and what pop returns. *)
Theorem C10_pop_one : forall ops id i, Forall op_ok ops ->
  fst (pop_from_list (st_get (list_run ops no_lists) id) i) = item_at i (seq_of (spec_run ops no_seqs) id).
Proof.
  intros ops id i O. destruct (repr_get _ _ id (reached_ok ops O)) as [W C].
  rewrite <- C. now apply pop_ok.
Qed.
Print Assumptions C10_pop_one.

Theorem C10_pop_batch : forall ops lists indices, Forall op_ok ops -> length lists = length indices ->
  fst (fst (pop_from_lists lists indices (list_run ops no_lists))) =
  popped 0 (where_index lists indices) indices (spec_run ops no_seqs).
Proof. intros. apply pop_lists_ok; auto. now apply reached_ok. Qed.
Print Assumptions C10_pop_batch.

(** An error is returned exactly when sizes disagree or some id is not that of a
    list; the lists among them are changed all the same. *)
Theorem C10_errors : forall ops o, Forall op_ok ops -> op_ok o ->
  snd (list_step (list_run ops no_lists) o) = snd (spec_step (spec_run ops no_seqs) o).
Proof. intros ops o O O1. apply step_ok; auto. now apply reached_ok. Qed.
Print Assumptions C10_errors.

(** Lists an operation does not name are not touched at all. *)
Theorem C10_other_lists : forall s o id, named id (names o) = false -> fst (list_step s o) id = s id.
Proof. exact step_other. Qed.
Print Assumptions C10_other_lists.

(** ** C11: slices *)

(** Reading l[from:to]. The range [0, 2^63 - 1) stands for "no upper bound" in the
    code, hence the condition (which a list that fits in memory always meets). *)
Theorem C11_read_slice : forall ops id from to, Forall op_ok ops ->
  to <> Some kUnspecifiedTo \/ (Z.of_nat (length (seq_of (spec_run ops no_seqs) id)) <= kUnspecifiedTo)%Z ->
  explode_list (st_get (list_run ops no_lists) id) (range_opt from to) =
  py_slice (Some from) to (seq_of (spec_run ops no_seqs) id).
Proof.
  intros ops id from to O H. destruct (repr_get _ _ id (reached_ok ops O)) as [W C].
  rewrite <- C in *. apply explode_list_ok; auto. rewrite (size_of_contents _ W).
  destruct to as [t|]; [|exact I]. destruct H as [H|H]; [left; congruence | now right].
Qed.
Print Assumptions C11_read_slice.

(** Reading the slices of several lists at once: one after the other, with the
    split points where each starts. *)
Theorem C11_read_slices : forall ops lists from to, Forall op_ok ops -> to <> Some kUnspecifiedTo ->
  let parts := map (slice_of from to (spec_run ops no_seqs)) lists in
  let '(items, splits, err) := explode_lists lists (range_opt from to) (list_run ops no_lists) in
  items = concat parts /\
  length splits = S (length lists) /\
  (forall i, i <= length lists -> nth i splits 0 = length (concat (firstn i parts))) /\
  err = has_non_list lists.
Proof.
  intros ops lists from to O T. cbv zeta.
  rewrite (explode_lists_ok from to _ _ (reached_ok ops O) T). split; [reflexivity|].
  rewrite sums_length, map_length. split; [reflexivity|]. split; [|reflexivity].
  intros i Hi. now rewrite sums_nth by now rewrite map_length.
Qed.
Print Assumptions C11_read_slices.

(** l[from:to] = values, and del l[from:to] *)
Theorem C11_assign_slice : forall l from to vs, wf_list l -> slice_wf vs ->
  to <> Some kUnspecifiedTo \/ (Z.of_nat (size_ l) <= kUnspecifiedTo)%Z ->
  contents (replace_in_list l (range_opt from to) vs) =
  py_assign (Some from) to (slice_items vs) (contents l).
Proof.
  intros l from to vs W S H. apply replace_in_list_ok; auto.
  destruct to as [t|]; [|exact I]. destruct H as [H|H]; [left; congruence | now right].
Qed.
Print Assumptions C11_assign_slice.

Theorem C11_delete_slice : forall l from to, wf_list l ->
  to <> Some kUnspecifiedTo \/ (Z.of_nat (size_ l) <= kUnspecifiedTo)%Z ->
  contents (remove_range l (range_opt from to)) = py_delete (Some from) to (contents l).
Proof.
  intros l from to W H. apply remove_range_ok; auto.
  destruct to as [t|]; [|exact I]. destruct H as [H|H]; [left; congruence | now right].
Qed.
Print Assumptions C11_delete_slice.

(** What Python's rules say, item by item: the items outside the range stay, in
    order; those inside are replaced. *)
Theorem C11_assign_pointwise : forall (l vs : list ditem) from to,
  let a := py_start (Some from) l in
  let b := Nat.max a (py_stop to l) in
  let l' := py_assign (Some from) to vs l in
  length l' = length l - (b - a) + length vs /\
  (forall i, i < a -> nth i l' None = nth i l None) /\
  (forall i, i < length vs -> nth (a + i) l' None = nth i vs None) /\
  (forall i, b <= i -> nth (i - (b - a) + length vs) l' None = nth i l None).
Proof. exact py_assign_pointwise. Qed.
Print Assumptions C11_assign_pointwise.

(** ** A history with both kinds of operations and mixed types *)
Definition lst : ObjectId := mkOid 7 3 kListFlag 40.
Definition other : ObjectId := mkOid 7 3 0 40.
Definition int (z : Z) : ditem := Some (existT cval KInt32 z).
Definition mixed : slice :=
  mkSlice 3 [existT _ KInt32 [Some 1%Z; None; None]; existT _ KBool [None; None; Some true]].
Definition history : list list_op :=
  [OpExtend1 lst mixed; OpAppend1 lst (int 5);
   OpReplace1 lst (-2)%Z None mixed; OpSet1 lst (-1)%Z (int 9);
   OpPop [Some lst; None; Some other] [Some 0%Z; Some 1%Z; Some 0%Z];
   OpRemove [Some lst] (-1)%Z (Some 100%Z)].
Example C10_hypotheses_met : Forall op_ok history.
Proof.
  assert (M : slice_wf mixed).
  { split.
    - repeat constructor.
    - intros [|[|[|i]]] Hi pre a post E N; [| | |cbn in Hi; exfalso; do 3 apply Nat.succ_lt_mono in Hi; inversion Hi].
      all: destruct pre as [|p1 [|p2 [|p3 pre]]]; cbn in E; try discriminate; injection E; intros; subst;
        cbn in *; try congruence; repeat constructor. }
  apply Forall_cons; [exact M|]. apply Forall_cons; [exact I|].
  apply Forall_cons; [split; [discriminate | exact M]|]. apply Forall_cons; [exact I|].
  apply Forall_cons; [exact I|]. apply Forall_cons; [discriminate|]. apply Forall_nil.
Qed.
Example C10_history_value :
  option_map contents (list_run history no_lists lst) = Some [None; int 1; None].
Proof. reflexivity. Qed.
Example C11_hypotheses_met :
  explode_list (st_get (list_run history no_lists) lst) (range_opt (-2) (Some 2%Z)) = [int 1].
Proof. reflexivity. Qed.
