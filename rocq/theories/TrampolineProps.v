(** C57: recursion through a trampoline does what the recursive program does. *)
From Coq Require Import List Bool Arith Permutation Factorial.
From Verif Require Import TrampolineModel TrampolineSpec TrampolineProofs.
Import ListNotations.

(** Run changes the state and returns the status as the recursive program does, whatever the
    callbacks do *)
Theorem C57_run : forall (S E C : Type) (invoke : C -> S -> S * option E * list C) root s s' st,
  (exists fuel, run invoke fuel root s = Some (s', st)) <-> (exists l, recursive invoke root s s' st l).
Proof.
  intros. split.
  - intros [fuel H]. apply run_iff in H. destruct H as (l & R & _). now exists l.
  - intros [l R]. exists (length l). apply run_iff. exists l. split; [exact R|apply le_S, le_n].
Qed.
Print Assumptions C57_run.

(** The calls are those of the recursive program, in the same order: a callback is called when the
    one that enqueued it and all that was enqueued before it, with all that these enqueue, are done.
    The loop takes one round for each call but the first *)
Theorem C57_order : forall (S E C : Type) (invoke : C -> S -> S * option E * list C) fuel root s j s' st,
  run (noted invoke) fuel root ([], s) = Some ((j, s'), st) <->
  recursive invoke root s s' st j /\ length j <= 1 + fuel.
Proof. exact journal_iff. Qed.
Print Assumptions C57_order.

(** When all goes well, every callback that was enqueued has been called exactly once *)
Theorem C57_once : forall (S E C : Type) (invoke : C -> S -> S * option E * list C) fuel root s j s',
  run (noted invoke) fuel root ([], s) = Some ((j, s'), None) ->
  Permutation (map fst j) (root :: concat (map snd j)).
Proof.
  intros S E C invoke fuel root s j s' H. apply journal_iff in H.
  exact (proj1 (success_both S E C invoke) _ _ _ _ _ (proj1 H) eq_refl).
Qed.
Print Assumptions C57_once.

(** When a callback fails, its error is returned and nothing is called after it *)
Theorem C57_error : forall (S E C : Type) (invoke : C -> S -> S * option E * list C) fuel root s j s' e,
  run (noted invoke) fuel root ([], s) = Some ((j, s'), Some e) ->
  exists l c cs s1, j = l ++ [(c, cs)] /\ invoke c s1 = (s', Some e, cs).
Proof.
  intros S E C invoke fuel root s j s' e H. apply journal_iff in H.
  exact (proj1 (error_both S E C invoke) _ _ _ _ _ (proj1 H) e eq_refl).
Qed.
Print Assumptions C57_error.

(** It runs forever exactly when the recursive program does *)
Theorem C57_never_ends : forall (S E C : Type) (invoke : C -> S -> S * option E * list C) root s,
  (forall fuel, run invoke fuel root s = None) <-> ~ exists s' st l, recursive invoke root s s' st l.
Proof. exact never_iff. Qed.
Print Assumptions C57_never_ends.

(** The program of the documentation computes factorials *)
Theorem C57_factorial : forall n, exists fuel mem,
  run factorial fuel (Compute n 0) [0] = Some (mem, None) /\ nth 0 mem 0 = fact n.
Proof.
  intros n. destruct (factorial_runs n 0 [0]) as (mem & l & R & _ & V & _); [apply le_n|].
  exists (length l), mem. split; [|exact V]. apply run_iff. exists l. split; [exact R|apply le_S, le_n].
Qed.
Print Assumptions C57_factorial.

(** A program of three levels that notes what it does: 1 enqueues 2 and 5, 2 enqueues 3 and 4; 4 fails
    if asked to *)
Definition ex_program (fails : bool) (c : nat) (s : list nat) : list nat * option nat * list nat :=
  (s ++ [c], if fails && (c =? 4) then Some 40 else None,
   match c with 1 => [2; 5] | 2 => [3; 4] | 4 => [6] | _ => [] end).
Example C57_hypotheses_met :
  run (ex_program false) 5 1 [] = Some ([1; 2; 3; 4; 6; 5], None) /\
  run (ex_program false) 4 1 [] = None /\
  run (ex_program true) 5 1 [] = Some ([1; 2; 3; 4], Some 40) /\
  run (noted (ex_program true)) 5 1 ([], []) = Some ([(1, [2; 5]); (2, [3; 4]); (3, []); (4, [6])], [1; 2; 3; 4], Some 40) /\
  run factorial 9 (Compute 4 0) [0] = Some ([24; 6; 2; 1; 1], None).
Proof. vm_compute; repeat split; reflexivity. Qed.
(** A callback that enqueues itself never ends *)
Example C57_forever : forall fuel, run (fun (c : unit) (s : nat) => (s + 1, @None unit, [c])) fuel tt 0 = None.
Proof.
  intros fuel. unfold run, call, run_executor, flush_buffer; cbn [fold_left enqueue stack_ buffer_ rev app].
  generalize (0 + 1). induction fuel as [|fuel IH]; intros s; cbn; [reflexivity|]. apply IH.
Qed.
