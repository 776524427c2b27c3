(** Property C47: a slice that is built holds what its builder was told. *)
From Coq Require Import NArith ZArith List Bool Arith Lia Permutation.
From Verif Require Import ObjectIdModel SchemaModel ItemModel SliceModel SliceSpec SliceProofs SliceBuildProofs.
Import ListNotations.
Local Open Scope nat_scope.

(** Whatever is inserted, in whatever order and mix of types, item by item, in arrays
    or through typed views: the builder never fails, it knows when all positions were
    decided, and the slice it builds, in whatever order the map of types is visited,
    holds at each position the first thing that was said about it. The slice keeps
    positions that are missing apart from those about which nothing was said. *)
Theorem C47_slice_holds_what_was_inserted :
  forall n a ops, ops_ok n [] ops ->
  exists b, run ops (new_builder n a) = Some b /\
    (is_finalized b = true <-> forall i, i < n -> content ops i <> None) /\
    forall order, Permutation order (b_map b) -> exists s, build order b = Some s /\ slice_wf s /\
      s_size s = n /\
      (forall i, i < n -> item_at s i = item_of (content ops i)) /\
      (forall i, i < n -> (nth i (s_tidx s) TUnset = TUnset <-> content ops i = None)) /\
      (forall i, i < n -> (nth i (s_tidx s) TUnset = TRemoved <-> content ops i = Some None)).
Proof. exact life_ok. Qed.

(** All ways to read a slice agree, and none reads memory that was not written. *)
Theorem C47_readers_agree : forall s, slice_wf s ->
  (forall i, i < s_size s -> slice_get s i = Some (item_at s i)) /\
  (forall i, i < s_size s -> slice_present s i = present_item (item_at s i)) /\
  as_items s = items s /\
  slice_count s = length (filter present_item (items s)).
Proof. exact readers_ok. Qed.

(** The allocations of the slice are those the builder was given, and those of the
    objects that were inserted with their allocations: nothing is lost or added. *)
Theorem C47_allocations :
  forall n a ops b order s, ops_ok n [] ops -> (forall x, In (OAllocs x) ops -> allocs_ok x) ->
  run ops (new_builder n a) = Some b -> Permutation order (b_map b) -> build order b = Some s ->
  s_values s <> [] ->
  forall x, covers (s_allocs s) x <->
    covers a x \/ exists before op rest, ops = before ++ op :: rest /\ gives before op x.
Proof. exact life_allocs. Qed.

(** A slice of five positions: position 1 is masked out, an array of integers claims
    positions 0 and 1, a view of texts then claims 2 and tries 0 again, position 3 is
    an object with its allocation, and nothing is said about position 4. *)
Definition i32 (z : Z) : value := val KInt32 z.
Definition txt (l : list N) : value := val KText l.
Definition an_object : ObjectId := mkOid 9 10 0 3.
Definition a_history : list bop :=
  [ OMask [true; false; true; true; true];
    OBatch KInt32 [true; true; false; false; false] [] [Some (i32 5); Some (i32 6); None; None; None];
    OTyped KText [(2, Some (txt [97%N])); (0, Some (txt [98%N]))];
    OInsertAlloc 3 (Some (val KObjectId an_object)) ].
Example C47_hypotheses_met :
  ops_ok 5 [] a_history /\
  match run a_history (new_builder 5 no_allocs) with
  | Some b => is_finalized b = false /\
      match build (rev (b_map b)) b with
      | Some s => as_items s = [Some (i32 5); None; Some (txt [97%N]); Some (val KObjectId an_object); None] /\
          s_tidx s = [TIdx 0; TRemoved; TIdx 1; TIdx 2; TUnset] /\
          s_types s = [KInt32; KText; KObjectId] /\ slice_count s = 3 /\ s_dtype s = None
      | None => False
      end
  | None => False
  end.
Proof.
  split.
  - unfold a_history. cbn [ops_ok op_ok app]. split; [right; reflexivity|].
    split.
    { split; [reflexivity|]. split; [right; reflexivity|]. split; [left; reflexivity|].
      intros [|[|[|[|[|i]]]]] Hi M _; try (cbn in M; discriminate); try lia; eexists; split; reflexivity. }
    split.
    { constructor; [cbn; split; [lia|reflexivity]|]. constructor; [cbn; split; [lia|reflexivity]|constructor]. }
    split; [lia|exact I].
  - vm_compute. repeat split.
Qed.

Print Assumptions C47_slice_holds_what_was_inserted.
Print Assumptions C47_readers_agree.
Print Assumptions C47_allocations.
