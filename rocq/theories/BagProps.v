(** C13-C20: bags. BagSpec.v says what bags contain and which histories are
    considered, BagReads.v what is read. *)
From Coq Require Import String NArith ZArith List Bool Arith Lia Permutation.
From Verif Require Import ObjectIdModel ObjectIdProofs SchemaModel ItemModel DataListModel DictModel DictSpec
  SourceModel SourceSpec BagModel MergeModel BagSpec BagReads ReadProofs BagStateProofs BagViewProofs BagResultProofs BagFinalProofs.
Import ListNotations.
Local Open Scope nat_scope.

Section Props.
(** the sizes of allocations *)
Variable asize : ObjectId -> N.
Hypothesis asize_ok : forall a, (asize a <= capacity a)%N.
(** the order in which hash maps are iterated *)
Variable iter : dmap -> dmap.
Hypothesis any_order : forall m, Permutation (iter m) m.
Notation after := (after iter).
Notation succeeds ops op := (snd (step iter (after ops) op)) (only parsing).

(** ** C13: lists and dicts. What a bag says about a list or dict depends only on what
    it said when it was forked and on the writes to this bag, whatever is done to the
    other bags. *)
Theorem C13_fork_lists_and_dicts : forall ops b imm ops2,
  history asize ((ops ++ [BFork b imm]) ++ ops2) ->
  has_bag (after ops) b -> fallbacks_of (after ops) b = [] ->
  let n := length (bags (after ops)) in
  let st := after ops in
  let st2 := after ((ops ++ [BFork b imm]) ++ ops2) in
  (is_mutable st b = true -> forallb (fun op => negb (merges_or_closes b op)) ops2 = true ->
   (forall o, wf o -> c_list (seen st2 b) o = fold_left (list_after b o) ops2 (c_list (seen st b) o)) /\
   (forall o k, wf o -> c_dict (seen st2 b) o k = fold_left (dict_after b o) ops2 (c_dict (seen st b) o) k)) /\
  (imm = false -> forallb (fun op => negb (merges_or_closes n op)) ops2 = true ->
   (forall o, wf o -> c_list (seen st2 n) o = fold_left (list_after n o) ops2 (c_list (seen st b) o)) /\
   (forall o k, wf o -> c_dict (seen st2 n) o k = fold_left (dict_after n o) ops2 (c_dict (seen st b) o) k)).
Proof. exact (fork_writes asize asize_ok iter any_order). Qed.

Theorem C13_edit_list : forall ops b o n f,
  history asize (ops ++ [BEditList b o n f]) -> is_mutable (after ops) b = true ->
  let st := after ops in
  let st' := after (ops ++ [BEditList b o n f]) in
  others_unchanged asize st st' b /\
  (forall attr o', exists_object asize o' -> c_attr (seen st' b) attr o' = c_attr (seen st b) attr o') /\
  (forall o' k, wf o' -> c_dict (seen st' b) o' k = c_dict (seen st b) o' k) /\
  (forall o', wf o' -> o' <> o -> c_list (seen st' b) o' = c_list (seen st b) o') /\
  succeeds ops (BEditList b o n f) = is_list (allocation_of o) /\
  c_list (seen st' b) o = if is_list (allocation_of o) then Some (f (list_items (c_list (seen st b) o))) else c_list (seen st b) o.
Proof. exact (edit_list_result asize asize_ok iter any_order). Qed.

Theorem C13_edit_dict : forall ops b o op,
  history asize (ops ++ [BEditDict b o op]) -> is_mutable (after ops) b = true ->
  let st := after ops in
  let st' := after (ops ++ [BEditDict b o op]) in
  let good := is_dict (allocation_of o) || is_schema (allocation_of o) in
  others_unchanged asize st st' b /\
  (forall attr o', exists_object asize o' -> c_attr (seen st' b) attr o' = c_attr (seen st b) attr o') /\
  (forall o', wf o' -> c_list (seen st' b) o' = c_list (seen st b) o') /\
  (forall o' k, wf o' -> o' <> o -> c_dict (seen st' b) o' k = c_dict (seen st b) o' k) /\
  succeeds ops (BEditDict b o op) = good /\
  forall k, c_dict (seen st' b) o k = if good then f_step (c_dict (seen st b) o) op k else c_dict (seen st b) o k.
Proof. exact (edit_dict_result asize asize_ok iter any_order). Qed.

(** ** C14: attributes. After any operations the entry is what the writes to this bag
    give, and merges into it aside nothing else has an effect. *)
Theorem C14_last_write : forall ops ops2 b,
  history asize (ops ++ ops2) -> is_mutable (after ops) b = true ->
  forallb (fun op => negb (merges_or_closes b op)) ops2 = true ->
  is_mutable (after (ops ++ ops2)) b = true /\
  forall attr o, exists_object asize o ->
    c_attr (seen (after (ops ++ ops2)) b) attr o = fold_left (attr_after b attr o) ops2 (c_attr (seen (after ops) b) attr o).
Proof. exact (last_write_result asize asize_ok iter any_order). Qed.

Theorem C14_new_bag_is_empty : forall ops mut,
  history asize (ops ++ [BNew mut]) ->
  let st := after ops in
  let st' := after (ops ++ [BNew mut]) in
  let n := length (bags st) in
  length (bags st') = S n /\ same_content asize empty_content (seen st' n) /\ is_mutable st' n = mut /\ all_unchanged asize st st'.
Proof. exact (new_result asize asize_ok iter any_order). Qed.

(** a write to attributes succeeds and changes nothing else *)
Theorem C14_write_attributes : forall ops op b,
  history asize (ops ++ [op]) -> is_mutable (after ops) b = true ->
  match op with BSetAttr c _ _ _ | BSetAttrs c _ _ _ _ _ | BCreate c _ _ | BSetFull c _ _ _ => c = b | _ => False end ->
  let st := after ops in
  let st' := after (ops ++ [op]) in
  succeeds ops op = true /\
  others_unchanged asize st st' b /\
  (forall attr o, exists_object asize o -> c_attr (seen st' b) attr o = attr_after b attr o (c_attr (seen st b) attr o) op) /\
  (forall o, wf o -> c_list (seen st' b) o = c_list (seen st b) o) /\
  (forall o k, wf o -> c_dict (seen st' b) o k = c_dict (seen st b) o k).
Proof. exact (write_attributes_result asize asize_ok iter any_order). Qed.

(** reading a batch is reading each *)
Theorem C14_read_batch : forall ops b objs ids has_small attr with_removed,
  history asize ops -> batch_ok asize objs ids has_small ->
  let st := after ops in
  get_attrs (layers st) attr ids has_small objs (impls_of st b) with_removed =
    map (fun o => match o with
                  | Some o => match c_attr (seen st b) attr o with Some v => v | None => None end
                  | None => None
                  end) objs /\
  get_attrs_with_removed (layers st) attr ids has_small objs (impls_of st b) =
    map (fun o => match o with Some o => c_attr (seen st b) attr o | None => Some None end) objs.
Proof. exact (read_batch_result asize asize_ok iter any_order). Qed.

(** every run of bags is a run of the specification *)
Theorem C14_runs_refine_specification : forall ops, history asize ops ->
  exists s, reaches asize ops (results iter ops init) s /\ length s = length (bags (after ops)) /\
    forall b, has_bag (after ops) b -> same_content asize (full s b) (seen (after ops) b).
Proof. exact (refinement asize asize_ok iter any_order). Qed.

(** ** C15: forks *)
Theorem C15_fork_has_same_contents : forall ops b imm,
  history asize (ops ++ [BFork b imm]) ->
  let st := after ops in
  let st' := after (ops ++ [BFork b imm]) in
  let n := length (bags st) in
  has_bag st b -> fallbacks_of st b = [] ->
  succeeds ops (BFork b imm) = true /\ length (bags st') = S n /\
  same_content asize (seen st b) (seen st' n) /\ is_mutable st' n = negb imm /\ fallbacks_of st' n = [] /\ all_unchanged asize st st'.
Proof. exact (fork_result asize asize_ok iter any_order). Qed.

Theorem C15_fork_with_fallbacks_refused : forall ops b imm,
  history asize (ops ++ [BFork b imm]) -> fallbacks_of (after ops) b <> [] ->
  succeeds ops (BFork b imm) = false /\ length (bags (after (ops ++ [BFork b imm]))) = length (bags (after ops)).
Proof. exact (fork_refused asize asize_ok iter any_order). Qed.

(** whatever is done that does not write to a bag, it is still the same *)
Theorem C15_isolation : forall ops ops2 b,
  history asize (ops ++ ops2) -> has_bag (after ops) b ->
  forallb (fun op => negb (writes_to b op)) ops2 = true ->
  has_bag (after (ops ++ ops2)) b /\ same_content asize (seen (after ops) b) (seen (after (ops ++ ops2)) b).
Proof. exact (isolation asize asize_ok iter any_order). Qed.

Theorem C15_forks_are_independent : forall ops b imm ops2,
  history asize ((ops ++ [BFork b imm]) ++ ops2) ->
  has_bag (after ops) b -> fallbacks_of (after ops) b = [] ->
  let n := length (bags (after ops)) in
  let st2 := after ((ops ++ [BFork b imm]) ++ ops2) in
  (forallb (fun op => negb (writes_to b op)) ops2 = true -> same_content asize (seen (after ops) b) (seen st2 b)) /\
  (forallb (fun op => negb (writes_to n op)) ops2 = true -> same_content asize (seen (after ops) b) (seen st2 n)).
Proof. exact (forks_independent asize asize_ok iter any_order). Qed.

(** ** C16: frozen bags *)
Theorem C16_freeze : forall ops b,
  history asize (ops ++ [BFreeze b]) ->
  let st := after ops in
  let st' := after (ops ++ [BFreeze b]) in
  (* the bag that is returned *)
  let r := if is_mutable st b then length (bags st) else b in
  has_bag st b ->
  succeeds ops (BFreeze b) = true /\ has_bag st' r /\
  same_content asize (seen st b) (seen st' r) /\ is_mutable st' r = false /\ all_unchanged asize st st'.
Proof. exact (freeze_result asize asize_ok iter any_order). Qed.

Theorem C16_make_immutable : forall ops b,
  history asize (ops ++ [BMakeImmutable b]) ->
  let st := after ops in
  let st' := after (ops ++ [BMakeImmutable b]) in
  has_bag st b ->
  succeeds ops (BMakeImmutable b) = true /\ has_bag st' b /\
  same_content asize (seen st b) (seen st' b) /\ is_mutable st' b = false /\ others_unchanged asize st st' b.
Proof. exact (close_result asize asize_ok iter any_order). Qed.

Theorem C16_frozen_bag_never_changes : forall ops ops2 b,
  history asize (ops ++ ops2) -> has_bag (after ops) b -> is_mutable (after ops) b = false ->
  has_bag (after (ops ++ ops2)) b /\
  same_content asize (seen (after ops) b) (seen (after (ops ++ ops2)) b) /\
  is_mutable (after (ops ++ ops2)) b = false.
Proof. exact (frozen_unchanged asize asize_ok iter any_order). Qed.

Theorem C16_writes_refused : forall ops op b,
  history asize (ops ++ [op]) -> writes_to b op = true -> has_bag (after ops) b -> is_mutable (after ops) b = false ->
  succeeds ops op = false /\ all_unchanged asize (after ops) (after (ops ++ [op])).
Proof. exact (refused asize asize_ok iter any_order). Qed.

(** ** C17: fallbacks *)
Theorem C17_first_answer_depth_first : forall ops b,
  history asize ops -> has_bag (after ops) b ->
  let st := after ops in
  (forall attr o, exists_object asize o ->
     c_attr (seen st b) attr o = first_answer (map (fun f => c_attr (own_seen st f) attr o) (depth_first st b))) /\
  (forall o, wf o ->
     c_list (seen st b) o = first_answer (map (fun f => c_list (own_seen st f) o) (depth_first st b))) /\
  (forall o k, wf o ->
     c_dict (seen st b) o k = first_answer (map (fun f => c_dict (own_seen st f) o k) (depth_first st b))).
Proof. exact (seen_depth_first asize asize_ok iter any_order). Qed.

Theorem C17_bag_with_fallbacks : forall ops fbs,
  history asize (ops ++ [BWithFallbacks fbs]) ->
  let st := after ops in
  let st' := after (ops ++ [BWithFallbacks fbs]) in
  let n := length (bags st) in
  if forallb (fun f => (f <? length (bags st)) && negb (is_mutable st f)) fbs
  then succeeds ops (BWithFallbacks fbs) = true /\ length (bags st') = S n /\
    same_content asize (fold_right overlay empty_content (map (seen st) fbs)) (seen st' n) /\
    is_mutable st' n = false /\ all_unchanged asize st st'
  else succeeds ops (BWithFallbacks fbs) = false.
Proof. exact (with_fallbacks asize asize_ok iter any_order). Qed.

(** a fallback that is there again changes nothing *)
Theorem C17_repetition : forall ops l1 f l2 l3,
  history asize (ops ++ [BWithFallbacks (l1 ++ f :: l2 ++ f :: l3)]) ->
  history asize (ops ++ [BWithFallbacks (l1 ++ f :: l2 ++ l3)]) ->
  forallb (fun f => (f <? length (bags (after ops))) && negb (is_mutable (after ops) f)) (l1 ++ f :: l2 ++ l3) = true ->
  let n := length (bags (after ops)) in
  same_content asize (seen (after (ops ++ [BWithFallbacks (l1 ++ f :: l2 ++ l3)])) n)
    (seen (after (ops ++ [BWithFallbacks (l1 ++ f :: l2 ++ f :: l3)])) n).
Proof. exact (repetition asize asize_ok iter any_order). Qed.

(** ** C18: merging. BagSpec.merged and BagSpec.conflict say what is merged. *)
Theorem C18_merge : forall ops b other overwrite allow_data allow_schema,
  let op := BMerge b other overwrite allow_data allow_schema in
  history asize (ops ++ [op]) ->
  let st := after ops in
  let st' := after (ops ++ [op]) in
  let dp := asked_policy overwrite allow_data in
  let sp := asked_policy overwrite allow_schema in
  is_mutable st b = true -> has_bag st other ->
  others_unchanged asize st st' b /\ is_mutable st' b = true /\
  if succeeds ops op
  then merged asize dp sp (seen st b) (seen st other) (seen st' b)
  else conflict asize dp sp (seen st b) (seen st other).
Proof. exact (merge_result asize asize_ok iter any_order). Qed.

(** with these policies it cannot fail, and the result is determined *)
Theorem C18_merge_without_raise : forall ops b other overwrite,
  let op := BMerge b other overwrite true true in
  history asize (ops ++ [op]) ->
  let st := after ops in
  let st' := after (ops ++ [op]) in
  is_mutable st b = true -> has_bag st other ->
  succeeds ops op = true /\
  same_content asize (if overwrite then overlay (seen st other) (seen st b) else overlay (seen st b) (seen st other)) (seen st' b).
Proof. exact (merge_no_raise asize asize_ok iter any_order). Qed.

(** ** C19 *)
Theorem C19_merge_fallbacks : forall ops b,
  history asize (ops ++ [BMergeFallbacks b]) ->
  let st := after ops in
  let st' := after (ops ++ [BMergeFallbacks b]) in
  let n := length (bags st) in
  has_bag st b ->
  succeeds ops (BMergeFallbacks b) = true /\ length (bags st') = S n /\
  same_content asize (seen st b) (seen st' n) /\ is_mutable st' n = true /\ fallbacks_of st' n = [] /\ all_unchanged asize st st'.
Proof. exact (merge_fallbacks_result asize asize_ok iter any_order). Qed.

(** ** C20 *)
Theorem C20_update : forall ops b other,
  history asize (ops ++ [BUpdate b other]) ->
  let st := after ops in
  let st' := after (ops ++ [BUpdate b other]) in
  let n := length (bags st) in
  has_bag st b -> has_bag st other -> fallbacks_of st b = [] ->
  succeeds ops (BUpdate b other) = true /\ length (bags st') = S n /\
  same_content asize (overlay (seen st other) (seen st b)) (overlay (seen st' n) (seen st b)) /\
  is_mutable st' n = false /\ fallbacks_of st' n = [] /\ all_unchanged asize st st'.
Proof. exact (update_overlay asize asize_ok iter any_order). Qed.

(** merging the update gives the same as merging the other bag *)
Theorem C20_update_reproduces_merge : forall ops b other,
  let n := length (bags (after ops)) in
  let by_update := BMerge b n true true true in
  let direct := BMerge b other true true true in
  history asize ((ops ++ [BUpdate b other]) ++ [by_update]) -> history asize (ops ++ [direct]) ->
  is_mutable (after ops) b = true -> has_bag (after ops) other ->
  same_content asize (seen (after (ops ++ [direct])) b) (seen (after ((ops ++ [BUpdate b other]) ++ [by_update])) b).
Proof. exact (update_then_merge asize asize_ok iter any_order). Qed.
End Props.
Print Assumptions C13_fork_lists_and_dicts.
Print Assumptions C13_edit_list.
Print Assumptions C13_edit_dict.
Print Assumptions C14_last_write.
Print Assumptions C14_new_bag_is_empty.
Print Assumptions C14_write_attributes.
Print Assumptions C14_read_batch.
Print Assumptions C14_runs_refine_specification.
Print Assumptions C15_fork_has_same_contents.
Print Assumptions C15_fork_with_fallbacks_refused.
Print Assumptions C15_isolation.
Print Assumptions C15_forks_are_independent.
Print Assumptions C16_freeze.
Print Assumptions C16_make_immutable.
Print Assumptions C16_frozen_bag_never_changes.
Print Assumptions C16_writes_refused.
Print Assumptions C17_first_answer_depth_first.
Print Assumptions C17_bag_with_fallbacks.
Print Assumptions C17_repetition.
Print Assumptions C18_merge.
Print Assumptions C18_merge_without_raise.
Print Assumptions C19_merge_fallbacks.
Print Assumptions C20_update.
Print Assumptions C20_update_reproduces_merge.

(** ** A history with every operation *)
Definition as_stored (m : dmap) : dmap := m.
Definition ints (l : list (option Z)) : slice := mkSlice (length l) [existT _ KInt64 l].
Definition big : ObjectId := mkOid 1 3 0 40.          (* an allocation for 8 objects *)
Definition fresh : ObjectId := mkOid 1 3 0 48.
Definition obj (i : N) : ObjectId := object_by_offset big i.
Definition single : ObjectId := mkOid 1 0 0 7.
Definition a_list : ObjectId := mkOid 1 0 2 9.
Definition a_dict : ObjectId := mkOid 1 0 4 11.
Definition int (z : Z) : value := val KInt64 z.
(** values for the objects of an allocation: 100, removed, and six that are not set *)
Definition partial : dslice :=
  mkDslice 8 (Some (fun off => if (off =? 0)%N then TIdx 0 else if (off =? 1)%N then TRemoved else TUnset))
    [existT array KInt64 (fun off => if (off =? 0)%N then Some 100%Z else None)].
Definition all_removed : dslice := mkDslice 8 (Some (fun _ => TRemoved)) [].
Lemma partial_wf : wf_dslice partial.
Proof.
  split; [|split; [constructor; [easy|constructor]|]].
  - intros off n. cbn. destruct (N.eqb_spec off 0) as [->|N0].
    + destruct n as [|[|n]]; unfold buf_at; cbn; split; congruence.
    + apply N.eqb_neq in N0. unfold buf_at. destruct n as [|[|n]]; cbn; rewrite ?N0;
        destruct (off =? 1)%N; split; intros E; try discriminate E; now contradiction E.
  - intros off n L. unfold buf_at. destruct n as [|[|n]]; cbn; auto. cbn in L. destruct (N.eqb_spec off 0); [lia|reflexivity].
Qed.
Definition demo : list bag_op :=
  [ BNew true;                                                             (* bag 0 *)
    BSetAttr 0 (obj 2) "x" (Some (int 5));
    BSetAttrs 0 [Some (obj 1); None; Some single; Some (obj 1)] [big] true "x" (ints [Some 1; Some 2; None; Some 3])%Z;
    BCreate 0 fresh [("y"%string, mkDslice 8 None [existT array KInt64 (fun off => if (off <? 8)%N then Some (Z.of_N off) else None)])];
    BEditList 0 a_list 1 (fun l => l ++ [Some (int 1)]);
    BEditDict 0 a_dict (DSetKey (Some (int 1)) (Some (int 2)));
    BFork 0 false;                                                         (* bag 1 *)
    BSetAttr 1 (obj 2) "x" None;
    BEditList 1 a_list 1 (fun l => l ++ [Some (int 2)]);
    BEditDict 1 a_dict (DSetKey (Some (int 1)) None);
    BFreeze 1;                                                             (* bag 2 *)
    BSetAttr 1 (obj 2) "x" (Some (int 6));
    BNew false;                                                            (* bag 3 *)
    BWithFallbacks [3; 2; 3];                                              (* bag 4 *)
    BMergeFallbacks 4;                                                     (* bag 5 *)
    BUpdate 0 1;                                                           (* bag 6 *)
    BMerge 0 4 false false false;
    BMerge 0 4 true true true;
    BMakeImmutable 5;
    BSetFull 0 fresh "y" partial;
    BSetFull 0 big "z" partial ].
Fixpoint all_ok (asize : ObjectId -> N) (ops rest : list bag_op) : Prop :=
  match rest with
  | [] => True
  | op :: rest => op_ok asize op /\ fresh_for ops op /\ all_ok asize (ops ++ [op]) rest
  end.
Lemma all_ok_history asize rest : forall ops, history asize ops -> all_ok asize ops rest -> history asize (ops ++ rest).
Proof.
  induction rest as [|op rest IH]; intros ops Hi A; [now rewrite app_nil_r|]. destruct A as (O & F & A).
  change (op :: rest) with ([op] ++ rest). rewrite app_assoc. apply IH; auto. now constructor.
Qed.
Lemma one_array_ok k (l : list (option (cval k))) : slice_ok (mkSlice (length l) [existT _ k l]).
Proof.
  split; [split|].
  - constructor; [reflexivity|constructor].
  - intros i _ pre a post E _. destruct pre as [|p [|q pre]]; injection E; intros; subst; try discriminate; constructor.
  - constructor; [easy|constructor].
Qed.
Ltac exists_tac := split; [vm_compute; split; [|split; [|split]]; reflexivity|vm_compute; congruence].
Example demo_history : history capacity demo.
Proof.
  apply (all_ok_history capacity demo []); [constructor|]. unfold demo. cbn [all_ok app].
  assert (E1 : exists_object capacity (obj 1)) by exists_tac.
  assert (E2 : exists_object capacity (obj 2)) by exists_tac.
  assert (E3 : exists_object capacity single) by exists_tac.
  assert (Wl : wf a_list) by (vm_compute; split; [|split; [|split]]; reflexivity).
  assert (Wd : wf a_dict) by (vm_compute; split; [|split; [|split]]; reflexivity).
  assert (Ab : (wf big /\ offset big = 0%N) /\ is_small_alloc big = false) by (split; [split; [vm_compute; split; [|split; [|split]]; reflexivity|reflexivity]|reflexivity]).
  assert (Af : (wf fresh /\ offset fresh = 0%N)) by (split; [vm_compute; split; [|split; [|split]]; reflexivity|reflexivity]).
  cbn [op_ok fresh_for].
  split; [exact I|]. split; [exact I|]. split; [exact E2|]. split; [exact I|].
  split; [split; [reflexivity|split; [exact (one_array_ok KInt64 [Some 1; Some 2; None; Some 3]%Z)|split; [|split; [left; cbn; lia|split; [constructor; [exact Ab|constructor]|]]]]]|].
  { cbn [present flat_map app]. constructor; [exact E1|]. constructor; [exact E3|]. constructor; [exact E1|constructor]. }
  { cbn [present flat_map app]. constructor; [left; reflexivity|]. constructor; [reflexivity|]. constructor; [left; reflexivity|constructor]. }
  split; [exact I|].
  split; [split; [exact Af|split; [reflexivity|split; [|constructor; [easy|constructor]]]]|].
  { constructor; [|constructor]. split; [reflexivity|]. intros _. split; [eexists; reflexivity|]. split; [constructor; [easy|constructor]|].
    intros off [|[|n]] L; cbn [ds_size ds_values] in *; unfold buf_at; cbn; auto. destruct (N.ltb_spec off 8); [lia|reflexivity]. }
  split; [repeat constructor; cbn; try easy; intros [X|X]; try easy; vm_compute in X; congruence|].
  split; [exact Wl|]. split; [exact I|]. split; [split; [exact Wd|discriminate]|]. split; [exact I|].
  split; [exact I|]. split; [exact I|]. split; [exact E2|]. split; [exact I|]. split; [exact Wl|]. split; [exact I|].
  split; [split; [exact Wd|discriminate]|]. split; [exact I|]. split; [exact I|]. split; [exact I|]. split; [exact E2|].
  do 15 (split; [exact I|]).
  assert (Pw := partial_wf).
  split; [split; [exact Af|split; [vm_compute; congruence|split; [reflexivity|auto]]]|]. split; [exact I|].
  split; [split; [exact (proj1 Ab)|split; [vm_compute; congruence|split; [reflexivity|auto]]]|]. split; [exact I|]. exact I.
Qed.
Definition at_step (n : nat) : state := after as_stored (firstn n demo).
Definition look (n b : nat) (o : ObjectId) : option ditem := c_attr (seen (at_step n) b) "x" o.
Example demo_results :
  results as_stored demo init = repeat true 16 ++ [false; true; true; true; true].
Proof. vm_compute. reflexivity. Qed.
(** every prefix of the history is a history, so that the theorems apply to each step *)
Example demo_prefixes n : history capacity (firstn n demo).
Proof. apply (history_app capacity _ (skipn n demo)). rewrite firstn_skipn. apply demo_history. Qed.
Example C13_hypotheses_met :
  has_bag (at_step 6) 0 /\ fallbacks_of (at_step 6) 0 = [] /\ is_mutable (at_step 6) 0 = true /\
  nth_error demo 6 = Some (BFork 0 false) /\
  c_list (seen (at_step 10) 0) a_list = Some [Some (int 1)] /\
  c_list (seen (at_step 10) 1) a_list = Some [Some (int 1); Some (int 2)] /\
  c_dict (seen (at_step 10) 0) a_dict (int 1) = Some (Some (int 2)) /\
  c_dict (seen (at_step 10) 1) a_dict (int 1) = Some None.
Proof. vm_compute. intuition (auto; lia). Qed.
Example C14_hypotheses_met :
  is_mutable (at_step 1) 0 = true /\
  forallb (fun op => negb (merges_or_closes 0 op)) (firstn 15 (skipn 1 demo)) = true /\
  map (look 16 0) [obj 0; obj 1; obj 2; single] = [None; Some (Some (int 3)); Some (Some (int 5)); Some None] /\
  map (fun i => c_attr (seen (at_step 21) 0) "y" (object_by_offset fresh i)) [0; 1; 2]%N = [Some (Some (int 100)); Some None; Some (Some (int 2))] /\
  map (fun i => c_attr (seen (at_step 21) 0) "z" (obj i)) [0; 1; 2]%N = [Some (Some (int 100)); Some None; None] /\
  batch_ok capacity [Some (obj 2); None; Some (obj 1)] [big] false /\
  get_attrs (layers (at_step 16)) "x" [big] false [Some (obj 2); None; Some (obj 1)] (impls_of (at_step 16) 0) false = [Some (int 5); None; Some (int 3)].
Proof.
  split; [reflexivity|]. split; [reflexivity|]. do 3 (split; [vm_compute; reflexivity|]). split; [|vm_compute; reflexivity].
  assert (E1 : exists_object capacity (obj 1)) by exists_tac. assert (E2 : exists_object capacity (obj 2)) by exists_tac.
  split; [constructor; [exact E2|constructor; [exact E1|constructor]]|]. split.
  - constructor; [|constructor]. split; [split; [vm_compute; split; [|split; [|split]]; reflexivity|reflexivity]|reflexivity].
  - constructor; [left; reflexivity|constructor; [left; reflexivity|constructor]].
Qed.
Example C15_hypotheses_met :
  has_bag (at_step 6) 0 /\ fallbacks_of (at_step 6) 0 = [] /\
  forallb (fun op => negb (writes_to 0 op)) (firstn 9 (skipn 7 demo)) = true /\
  map (look 16 0) [obj 1; obj 2] = [Some (Some (int 3)); Some (Some (int 5))] /\
  map (look 16 1) [obj 1; obj 2] = [Some (Some (int 3)); Some (Some (int 6))] /\
  fallbacks_of (at_step 14) 4 <> [].
Proof. vm_compute. intuition (auto; congruence). Qed.
Example C16_hypotheses_met :
  nth_error demo 10 = Some (BFreeze 1) /\ is_mutable (at_step 10) 1 = true /\
  has_bag (at_step 11) 2 /\ is_mutable (at_step 11) 2 = false /\
  look 11 2 (obj 2) = Some None /\ look 19 2 (obj 2) = Some None /\ look 19 1 (obj 2) = Some (Some (int 6)) /\
  writes_to 2 (BSetAttr 2 (obj 2) "x" None) = true.
Proof. vm_compute. intuition (auto; lia). Qed.
Example C17_hypotheses_met :
  forallb (fun f => (f <? length (bags (at_step 13))) && negb (is_mutable (at_step 13) f)) [3; 2; 3] = true /\
  depth_first (at_step 14) 4 = [4; 3; 2; 3] /\ look 14 4 (obj 1) = Some (Some (int 3)) /\ c_attr (own_seen (at_step 14) 4) "x" (obj 1) = None.
Proof. vm_compute. intuition (auto; lia). Qed.
(** the first merge has a conflict at [obj 2] *)
Example C18_hypotheses_met :
  is_mutable (at_step 16) 0 = true /\ has_bag (at_step 16) 4 /\ nth_error demo 16 = Some (BMerge 0 4 false false false) /\
  clash strict_differ (look 16 0 (obj 2)) (look 16 4 (obj 2)) = true /\
  is_mutable (at_step 17) 0 = true /\ has_bag (at_step 17) 4 /\ look 18 0 (obj 2) = Some None.
Proof. vm_compute. intuition (auto; lia). Qed.
Example C19_hypotheses_met :
  has_bag (at_step 14) 4 /\ fallbacks_of (at_step 14) 4 = [3; 2; 3] /\ nth_error demo 14 = Some (BMergeFallbacks 4) /\
  map (look 15 5) [obj 0; obj 1; obj 2; single] = map (look 15 4) [obj 0; obj 1; obj 2; single].
Proof. vm_compute. intuition (auto; lia). Qed.
Example C20_hypotheses_met :
  has_bag (at_step 15) 0 /\ has_bag (at_step 15) 1 /\ is_mutable (at_step 15) 0 = true /\ fallbacks_of (at_step 15) 0 = [] /\
  look 16 6 (obj 2) = Some (Some (int 6)) /\ look 16 6 (obj 0) = None.
Proof. vm_compute. intuition (auto; lia). Qed.

(** With repeated objects and values of different types, a batch can leave a value
    that was never written: an empty text for an object written "a" and then 7
    (a finding; BagSpec.op_ok excludes these batches). *)
Theorem C14_mixed_batch_with_repetition_refuted :
  exists objs ids has_small vs o attr,
    batch_ok capacity objs ids has_small /\ slice_ok vs /\ length objs = sl_size vs /\ In (Some o) objs /\
    let ops := [BNew true; BSetAttrs 0 objs ids has_small attr vs] in
    forall i, c_attr (seen (after as_stored ops) 0) attr o <> Some (slice_at vs i).
Proof.
  exists [Some (obj 0); Some (obj 1); Some (obj 1)], [big], false,
    (mkSlice 3 [existT _ KInt64 [Some 5; None; Some 7]%Z; existT _ KText [None; Some [97%N]; None]]), (obj 1), "x"%string.
  assert (E0 : exists_object capacity (obj 0)) by exists_tac. assert (E1 : exists_object capacity (obj 1)) by exists_tac.
  split; [split; [|split]|].
  - constructor; [exact E0|constructor; [exact E1|constructor; [exact E1|constructor]]].
  - constructor; [|constructor]. split; [split; [vm_compute; split; [|split; [|split]]; reflexivity|reflexivity]|reflexivity].
  - constructor; [left; reflexivity|constructor; [left; reflexivity|constructor; [left; reflexivity|constructor]]].
  - split; [split; [split|]|].
    + constructor; [reflexivity|constructor; [reflexivity|constructor]].
    + cbn [sl_size sl_values]. intros i L pre a post E. destruct pre as [|p [|q [|r pre]]]; injection E; intros; subst; try discriminate.
      * destruct i as [|[|[|i]]]; try lia; cbn in *; try congruence; repeat constructor.
      * destruct i as [|[|[|i]]]; try lia; cbn in *; try congruence; repeat constructor.
    + cbn. constructor; [intros [X|[]]; discriminate X|]. constructor; [easy|constructor].
    + split; [reflexivity|]. split; [right; left; reflexivity|]. cbn zeta.
      assert (X : c_attr (seen (after as_stored [BNew true; BSetAttrs 0 [Some (obj 0); Some (obj 1); Some (obj 1)] [big] false "x"
        (mkSlice 3 [existT _ KInt64 [Some 5; None; Some 7]%Z; existT _ KText [None; Some [97%N]; None]])]) 0) "x" (obj 1) = Some (Some (val KText []))) by (vm_compute; reflexivity).
      rewrite X. intros i E. apply (f_equal (fun x : option ditem => match x with Some (Some v) => as_kind KText v | _ => None end)) in E.
      destruct i as [|[|[|[|i]]]]; vm_compute in E; discriminate E.
Qed.
Print Assumptions C14_mixed_batch_with_repetition_refuted.

(** Writing an attribute of all objects of an allocation does nothing if all the values
    are removed ones, although the declaration (data_bag.h:300-312) says that a removed
    value removes the attribute (a finding; data_bag.cc:1160-1163 takes such values for
    unset ones). *)
Theorem C14_full_write_removes_refuted :
  exists ops alloc attr s o,
    history capacity (ops ++ [BSetFull 0 alloc attr s]) /\ is_mutable (after as_stored ops) 0 = true /\
    exists_object capacity o /\ allocation_of o = alloc /\
    (* the new value of this object, as of all others, is removed *)
    (forall off, exists t, ds_tidx s = Some t /\ t off = TRemoved) /\
    let st := after as_stored ops in
    let st' := after as_stored (ops ++ [BSetFull 0 alloc attr s]) in
    snd (step as_stored st (BSetFull 0 alloc attr s)) = true /\
    c_attr (seen st' 0) attr o = Some (Some (int 5)).
Proof.
  exists (firstn 2 demo), big, "x"%string, all_removed, (obj 2).
  assert (E2 : exists_object capacity (obj 2)) by exists_tac.
  split; [|split; [reflexivity|split; [exact E2|split; [reflexivity|split; [|split; vm_compute; reflexivity]]]]].
  - constructor; [apply demo_prefixes| |exact I]. cbn [op_ok]. split; [split; [vm_compute; split; [|split; [|split]]; reflexivity|reflexivity]|].
    split; [vm_compute; congruence|]. split; [reflexivity|]. intros X. now contradiction X.
  - intros off. eexists. split; reflexivity.
Qed.
Print Assumptions C14_full_write_removes_refuted.
