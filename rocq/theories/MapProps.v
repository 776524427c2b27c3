(** C33: mapping a functor over a stream, in order and in any order. *)
From Coq Require Import List Bool PeanoNat Permutation.
From Verif Require Import ChainModel MapModel MapSpec MapProofs UnorderedModel UnorderedSpec
  UnorderedProofs.
Import ListNotations.
Local Open Scope nat_scope.

Section Props.
  (** Any types, any functor (which may depend on anything, but is called at most
      once per item), and any input with what it holds at the start. *)
  Variables value result error : Type.
  Variable functor : nat -> value -> outcome result error.
  Variable orphaned : error.
  Variables (l : list value) (st : option (status error)).

  (** * In order *)

  (** Whatever the order in which the executor runs the tasks, whatever is dropped
      or cancelled: the output holds the results of the items in the order of the
      items, without a gap, and nothing after an item that fails. *)
  Theorem C33_map_order : forall ops : list (op value error),
    let s := run functor orphaned (start_map l st) ops in
    let i := input_after (l, st) ops in
    prefix (out (the_writer s)) (fst (mapped functor 0 (fst i) (snd i))).
  Proof. exact (map_order value result error functor orphaned l st). Qed.

  (** The output is closed when it holds all results, with the status of the input;
      or when it holds all results before the first item that fails, with the error
      of this item; or by a cancellation; or because the executor has dropped a
      task. *)
  Theorem C33_map_closed : forall (ops : list (op value error)) c,
    let s := run functor orphaned (start_map l st) ops in
    let i := input_after (l, st) ops in
    out_closed (the_writer s) = Some c ->
    mapped functor 0 (fst i) (snd i) = (out (the_writer s), Some c)
    \/ (exists e, In (Cancel e) ops /\ c = Err e)
    \/ (c = Err orphaned /\ Exists drops ops).
  Proof. exact (map_closed value result error functor orphaned l st). Qed.

  (** What is written stays, and a closed output does not change. *)
  Theorem C33_map_output_is_final : forall ops more : list (op value error),
    let s := run functor orphaned (start_map l st) ops in
    let s' := run functor orphaned (start_map l st) (ops ++ more) in
    (exists rest, out (the_writer s') = out (the_writer s) ++ rest)
    /\ (forall c, out_closed (the_writer s) = Some c ->
        out_closed (the_writer s') = Some c /\ out (the_writer s') = out (the_writer s)).
  Proof. exact (MapProofs.output_final value result error functor orphaned l st). Qed.

  (** When nothing is left to do, everything is delivered: all results before the
      first item that fails, and the end of the output if it has one. *)
  Theorem C33_map_delivers_everything : forall ops : list (op value error),
    let s := run functor orphaned (start_map l st) ops in
    let i := input_after (l, st) ops in
    quiet functor orphaned s ->
    (forall e, ~ In (Cancel e) ops) -> ~ Exists drops ops -> ~ In Expire ops ->
    mapped functor 0 (fst i) (snd i) = (out (the_writer s), out_closed (the_writer s)).
  Proof. exact (map_delivers value result error functor orphaned l st). Qed.

  (** The threads do not run forever between two events outside. *)
  Theorem C33_map_threads_end :
    exists work : state value result error -> nat,
    forall ops o,
      let s := run functor orphaned (start_map l st) ops in
      internal o -> snd (step functor orphaned s o) = Done ->
      work (fst (step functor orphaned s o)) < work s.
  Proof.
    exists (MapProofs.work value result error). intros ops o. cbv zeta.
    exact (MapProofs.internal_work value result error functor orphaned _ _ o
             (MapProofs.reachable value result error functor orphaned l st ops)).
  Qed.

  (** * In any order *)

  (** Every item of the output is the result of an item of the input, and none
      comes twice. *)
  Theorem C33_unordered_items : forall ops : list (op value error),
    let w := uwriter (fst (urun functor orphaned (start_unordered l st) ops)) in
    NoDup (map fst (out w))
    /\ forall k v, In (k, v) (out w) ->
       exists x, nth_error (fst (input_after (l, st) ops)) k = Some x /\ functor k x = Value v.
  Proof. exact (unordered_items value result error functor orphaned l st). Qed.

  (** The output is closed with success only if the input is, every item gave a
      value, and the output holds exactly these values. An error is the one of an
      item, of the input or of a cancellation, unless the executor has dropped a
      task. *)
  Theorem C33_unordered_closed : forall (ops : list (op value error)) c,
    let w := uwriter (fst (urun functor orphaned (start_unordered l st) ops)) in
    let i := input_after (l, st) ops in
    out_closed w = Some c ->
    match c with
    | OK => exists vs, mapped functor 0 (fst i) (snd i) = (vs, Some OK)
              /\ Permutation (out w) (tagged vs)
    | Err e => (exists k x, nth_error (fst i) k = Some x /\ functor k x = Error e)
               \/ snd i = Some (Err e) \/ In (Cancel e) ops \/ (e = orphaned /\ Exists drops ops)
    end.
  Proof. exact (unordered_closed value result error functor orphaned l st). Qed.

  Theorem C33_unordered_output_is_final : forall ops more : list (op value error),
    let s := fst (urun functor orphaned (start_unordered l st) ops) in
    let s' := fst (urun functor orphaned (start_unordered l st) (ops ++ more)) in
    (exists rest, out (uwriter s') = out (uwriter s) ++ rest)
    /\ (forall c, out_closed (uwriter s) = Some c ->
        out_closed (uwriter s') = Some c /\ out (uwriter s') = out (uwriter s)).
  Proof. exact (UnorderedProofs.output_final value result error functor orphaned l st). Qed.

  (** When nothing is left to do, the output is closed with an error that occurred,
      or it holds exactly the results of all items and is closed as the input is. *)
  Theorem C33_unordered_delivers_everything : forall ops : list (op value error),
    let s := fst (urun functor orphaned (start_unordered l st) ops) in
    let w := uwriter s in
    let i := input_after (l, st) ops in
    uquiet functor orphaned s ->
    (forall e, ~ In (Cancel e) ops) -> ~ Exists drops ops -> ~ In Expire ops ->
    (exists e, out_closed w = Some (Err e)
       /\ ((exists k x, nth_error (fst i) k = Some x /\ functor k x = Error e)
           \/ snd i = Some (Err e)))
    \/ (exists vs, mapped functor 0 (fst i) (snd i) = (vs, snd i) /\ out_closed w = snd i
          /\ length vs = length (fst i) /\ Permutation (out w) (tagged vs)).
  Proof. exact (unordered_delivers value result error functor orphaned l st). Qed.

  (** The output is closed once only: closing it never ends the process, and the
      check of the end of the input never fails. *)
  Theorem C33_unordered_never_crashes : forall ops : list (op value error),
    Forall (fun o => o <> Fatal /\ o <> CheckFailed)
      (snd (urun functor orphaned (start_unordered l st) ops)).
  Proof. exact (never_crashes value result error functor orphaned l st). Qed.

  Theorem C33_unordered_threads_end :
    exists work : ustate value result error -> nat,
    forall ops o,
      let s := fst (urun functor orphaned (start_unordered l st) ops) in
      internal o \/ o = Destroy -> snd (ustep functor orphaned s o) = Done ->
      work (fst (ustep functor orphaned s o)) < work s.
  Proof.
    exists (UnorderedProofs.work value result error). intros ops o. cbv zeta.
    exact (UnorderedProofs.internal_work value result error functor orphaned _ _ o
             (UnorderedProofs.reachable value result error functor orphaned l st ops)).
  Qed.
End Props.

(** * Non-vacuity *)

Definition sample_functor (k x : nat) : outcome nat nat := if x =? 13 then Error 99 else Value (k + x).

(** Three items; the second one arrives later, and the tasks run in the order
    2, 0, 1. *)
Definition reads : list (op nat nat) := [StepReader; StepReader].
Definition task (k : nat) : list (op nat nat) := [StepTask k; StepTask k; StepTask k; StepTask k].
Definition map_example : list (op nat nat) :=
  reads ++ reads ++ [StepReader; EnvWrite 20; StepReader; StepReader] ++ reads
  ++ [EnvWrite 30] ++ reads
  ++ task 2 ++ task 0 ++ [EnvClose OK; StepReader; StepReader; StepReader]
  ++ task 1 ++ [StepTask 1; StepTask 1; StepTask 1; FinishClose; StepReader; StepTask 0].

Lemma quiet_decided (functor : nat -> nat -> outcome nat nat) (s : state nat nat nat) :
  forallb (fun o => match snd (step functor 7 s o) with Impossible => true | _ => false end)
    ([StepReader; FinishClose; FinishCancel] ++ map (@StepTask nat nat) (seq 0 (length (tasks s)))) = true ->
  quiet functor 7 s.
Proof.
  intros H o I. rewrite forallb_forall in H.
  assert (G : forall o, In o ([StepReader; FinishClose; FinishCancel]
    ++ map (@StepTask nat nat) (seq 0 (length (tasks s)))) -> snd (step functor 7 s o) = Impossible).
  { intros o' Ho. specialize (H o' Ho). destruct (snd (step functor 7 s o')); auto; discriminate. }
  destruct o; try destruct I; try (apply G; cbn; auto; fail).
  destruct (Nat.lt_ge_cases k (length (tasks s))) as [L|L].
  - apply G, in_or_app. right. apply in_map, in_seq. auto with arith.
  - cbn [step]. replace (nth_error (tasks s) k) with (@None (MapModel.task nat nat nat)); [reflexivity|].
    symmetry. now apply nth_error_None.
Qed.

Example C33_map_hypotheses_met :
  let s := run sample_functor 7 (start_map [10] None) map_example in
  quiet sample_functor 7 s /\ out (the_writer s) = [10; 21; 32] /\ out_closed (the_writer s) = Some OK
  /\ (forall e, ~ In (Cancel e) map_example) /\ ~ Exists drops map_example
  /\ ~ In Expire map_example.
Proof.
  cbv zeta. split; [apply quiet_decided; vm_compute; reflexivity|].
  split; [vm_compute; reflexivity|]. split; [vm_compute; reflexivity|].
  split; [intros e; cbn; intuition discriminate|].
  split; [|cbn; intuition discriminate].
  intros H. apply Exists_exists in H. destruct H as (o & H & D). cbn in H.
  repeat (destruct H as [<-|H]; [exact D|]). exact H.
Qed.

(** An item fails before an earlier one is done: the earlier result is still
    delivered, the later one is not. *)
Example C33_map_failing_item :
  let ops := reads ++ reads ++ reads ++ task 2 ++ [StepTask 1; StepTask 1; StepTask 1] ++ task 0
             ++ [StepTask 0; FinishClose] in
  let s := run sample_functor 7 (start_map [10; 13; 20] None) ops in
  out (the_writer s) = [10] /\ out_closed (the_writer s) = Some (Err 99).
Proof. vm_compute. auto. Qed.

Lemma uquiet_decided (functor : nat -> nat -> outcome nat nat) (s : ustate nat nat nat) :
  forallb (fun o => match snd (ustep functor 7 s o) with Impossible => true | _ => false end)
    ([StepReader; FinishClose; FinishCancel; Destroy]
     ++ map (@StepTask nat nat) (seq 0 (length (utasks s)))) = true ->
  uquiet functor 7 s.
Proof.
  intros H o I. rewrite forallb_forall in H.
  assert (G : forall o, In o ([StepReader; FinishClose; FinishCancel; Destroy]
    ++ map (@StepTask nat nat) (seq 0 (length (utasks s)))) -> snd (ustep functor 7 s o) = Impossible).
  { intros o' Ho. specialize (H o' Ho). destruct (snd (ustep functor 7 s o')); auto; discriminate. }
  destruct o; try (destruct I as [[]|I]; discriminate I); try (apply G; cbn; auto; fail).
  destruct (Nat.lt_ge_cases k (length (utasks s))) as [L|L].
  - apply G, in_or_app. right. apply in_map, in_seq. auto with arith.
  - cbn [ustep]. replace (nth_error (utasks s) k) with (@None (utask nat nat nat)); [reflexivity|].
    symmetry. now apply nth_error_None.
Qed.

Definition unordered_example : list (op nat nat) :=
  reads ++ reads ++ [StepReader; EnvWrite 20; StepReader; StepReader] ++ reads
  ++ [EnvWrite 30] ++ reads
  ++ task 2 ++ task 0 ++ [EnvClose OK; StepReader; StepReader; StepReader]
  ++ task 1 ++ [StepReader; StepReader; Destroy].

Example C33_unordered_hypotheses_met :
  let s := fst (urun sample_functor 7 (start_unordered [10] None) unordered_example) in
  uquiet sample_functor 7 s /\ out (uwriter s) = [(2, 32); (0, 10); (1, 21)]
  /\ out_closed (uwriter s) = Some OK.
Proof.
  cbv zeta. split; [apply uquiet_decided; vm_compute; reflexivity|].
  split; vm_compute; reflexivity.
Qed.

Print Assumptions C33_map_order.
Print Assumptions C33_map_closed.
Print Assumptions C33_map_output_is_final.
Print Assumptions C33_map_delivers_everything.
Print Assumptions C33_map_threads_end.
Print Assumptions C33_unordered_items.
Print Assumptions C33_unordered_closed.
Print Assumptions C33_unordered_output_is_final.
Print Assumptions C33_unordered_delivers_everything.
Print Assumptions C33_unordered_never_crashes.
Print Assumptions C33_unordered_threads_end.
