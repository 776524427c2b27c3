(** C58: a loop over a stream does what a loop over a list does. *)
From Coq Require Import String.
From Coq Require Import List Bool Arith Lia.
From Verif Require Import ForModel ForSpec ForRunProofs ForWorkProofs.
Import ListNotations.
Local Open Scope string_scope.
Local Open Scope nat_scope.
Local Open Scope list_scope.

Section Properties.
Variables (value type E : Type).
Variable type_of : value -> type.
Variable type_eqb : type -> type -> bool.
Hypothesis type_eqb_spec : forall a b, type_eqb a b = true <-> a = b.
Variables (m : mode) (f : functors value E) (last : string) (initial : value) (initial_state : variables value).
(** The initial state is a namedtuple: its names differ *)
Hypothesis names : NoDup (map fst initial_state).

Lemma start_fresh s0 : start (E := E) m last initial initial_state = Some s0 -> ~ In last (map fst initial_state).
Proof.
  unfold start. destruct (existsb _ _) eqn:X; [discriminate|]. intros _ H. apply in_map_iff in H. destruct H as ([k v] & K & H).
  cbn in K. subst k. apply not_true_iff_false in X. apply X. apply existsb_exists. exists (last, v). split; [exact H|apply String.eqb_refl].
Qed.

(** What is written at any time is the beginning of what the loop over the items that came so far
    writes; if the loop returns a value, this is so unless it is cancelled *)
Theorem C58_prefix : forall s0 ops,
  start m last initial initial_state = Some s0 ->
  m = Yields \/ (forall e, ~ In (Cancel e) ops) ->
  prefix (written (run type_of type_eqb m f initial s0 ops))
    (fst (looped type_of type_eqb m f last initial initial_state (fst (input ops)) (snd (input ops)))).
Proof.
  intros s0 ops B. exact (top_prefix value type E type_of type_eqb type_eqb_spec m f last initial initial_state names (start_fresh s0 B) s0 ops B).
Qed.

(** If the output succeeds, then so does the loop over the items, and it writes the same; also if the
    loop was cancelled at any time *)
Theorem C58_success : forall s0 ops (s := run type_of type_eqb m f initial s0 ops),
  start m last initial initial_state = Some s0 -> out_status s = Some OK ->
  looped type_of type_eqb m f last initial initial_state (fst (input ops)) (snd (input ops)) = (written s, Ends OK).
Proof.
  intros s0 ops s B. exact (top_success value type E type_of type_eqb type_eqb_spec m f last initial initial_state names (start_fresh s0 B) s0 ops B).
Qed.

(** If the output fails, then so does the loop over the items, with the same error after the same
    output, unless the loop was cancelled or the executor has shut down *)
Theorem C58_error : forall s0 ops e (s := run type_of type_eqb m f initial s0 ops),
  start m last initial initial_state = Some s0 -> out_status s = Some (Err e) ->
  looped type_of type_eqb m f last initial initial_state (fst (input ops)) (snd (input ops)) = (written s, Ends (Err e)) \/
  (exists c, In (Cancel c) ops /\ (e = Cancelled c \/ e = Orphaned)) \/
  (In Shutdown ops /\ e = Orphaned).
Proof.
  intros s0 ops e s B. exact (top_error value type E type_of type_eqb type_eqb_spec m f last initial initial_state names (start_fresh s0 B) s0 ops B e).
Qed.

(** When the routine is done, or waits for an item that has not come, everything is written and the
    output is closed as it has to be *)
Theorem C58_complete : forall s0 ops (s := run type_of type_eqb m f initial s0 ops),
  start m last initial initial_state = Some s0 ->
  ~ In Expire ops -> (forall e, ~ In (Cancel e) ops) -> ~ In Shutdown ops ->
  at_ s = Gone \/ (at_ s = Waiting On_input /\ ready On_input s = false) ->
  looped type_of type_eqb m f last initial initial_state (fst (input ops)) (snd (input ops))
  = (written s, match out_status s with None => Going | Some st => Ends st end).
Proof.
  intros s0 ops s B. exact (top_complete value type E type_of type_eqb type_eqb_spec m f last initial initial_state names (start_fresh s0 B) s0 ops B).
Qed.

(** It gets there: a routine that is neither done nor waiting makes a step, one whose input is there is
    notified, and there are only so many steps until something comes from outside *)
Theorem C58_goes_on : exists work : state value E -> nat, forall s0 ops (s := run type_of type_eqb m f initial s0 ops),
  start m last initial initial_state = Some s0 ->
  (at_ s <> Gone -> (forall w, at_ s <> Waiting w) ->
     forall now, work (step type_of type_eqb m f initial s (Step now)) < work s) /\
  (forall w, at_ s = Waiting w -> ready w s = true -> work (step type_of type_eqb m f initial s Notify) < work s).
Proof.
  exists (work value E). intros s0 ops s B.
  exact (goes_on value type E type_of type_eqb type_eqb_spec m f last initial initial_state names (start_fresh s0 B) s0 ops B).
Qed.
End Properties.
Print Assumptions C58_prefix.
Print Assumptions C58_success.
Print Assumptions C58_error.
Print Assumptions C58_complete.
Print Assumptions C58_goes_on.

(** * Examples: numbers, all of one type; the variable n counts, and r is returned or yielded *)
Definition ex_get (n : string) (l : variables nat) : nat := match given n l with Some v => v | None => 0 end.
(** Sums up the items, until the sum is over 10 *)
Definition ex_sum : functors nat nat := Build_functors
  (fun x l => Namedtuple [("n", ex_get "n" l + 1); ("r", ex_get "r" l + x)])
  (Some (fun l => Namedtuple [("r", ex_get "r" l * 100)]))
  (Some (fun l => if ex_get "r" l <=? 10 then Yes else No)).
(** Yields the number and the item, for odd items only; fails at 7; yields 1000 at the end *)
Definition ex_odd : functors nat nat := Build_functors
  (fun x l => if x =? 7 then Error_of 77
              else if Nat.odd x then Namedtuple [("r", ex_get "n" l * 10 + x); ("n", ex_get "n" l + 1)] else Namedtuple [("n", ex_get "n" l + 1)])
  (Some (fun l => Namedtuple [("r", 1000 + ex_get "n" l)])) None.
Definition ex_run (m : mode) (f : functors nat nat) (ops : list (op nat nat)) : option (list nat * option (status nat) * pc nat nat) :=
  match start m "r" 0 [("n", 0)] with
  | Some s0 => let s := run (fun _ => tt) (fun _ _ => true) m f 0 s0 ops in Some (written s, out_status s, at_ s)
  | None => None
  end.
Definition ex_due (m : mode) (f : functors nat nat) (ops : list (op nat nat)) :=
  looped (fun _ => tt) (fun _ _ => true) m f "r" 0 [("n", 0)] (fst (input ops)) (snd (input ops)).
Definition steps (n : nat) : list (op nat nat) := repeat (Step true) n.

(** Items come while the loop waits; the condition is late *)
Definition ex_sum_ops : list (op nat nat) :=
  Write_input 3 :: steps 3 ++ [Step true; Step true; Step false; Step true; Notify; Write_input 4; Step true] ++ steps 6
  ++ [Close_input None; Notify] ++ steps 10.
Definition ex_odd_ops : list (op nat nat) :=
  [Write_input 5; Write_input 6] ++ steps 20 ++ [Write_input 9; Notify] ++ steps 9 ++ [Close_input None; Notify] ++ steps 9.
Example C58_hypotheses_met :
  ex_run Returns ex_sum ex_sum_ops = Some ([700], Some OK, Gone) /\
  ex_due Returns ex_sum ex_sum_ops = ([700], Ends OK) /\
  ex_run Returns ex_sum (Write_input 11 :: Write_input 5 :: steps 20) = Some ([11], Some OK, Gone) /\
  ex_run Returns ex_sum (Write_input 3 :: steps 20) = Some ([], None, Waiting On_input) /\
  ex_run Yields ex_odd ex_odd_ops = Some ([0; 5; 29; 1003], Some OK, Gone) /\
  ex_due Yields ex_odd ex_odd_ops = ([0; 5; 29; 1003], Ends OK) /\
  ex_run Yields ex_odd (map (@Write_input nat nat) [1; 7; 3] ++ steps 20) = Some ([0; 1], Some (Err (Given 77)), Gone) /\
  ex_run Yields ex_odd (map (@Write_input nat nat) [1; 3; 5] ++ steps 10 ++ [Cancel 9; Call_on_cancel; Close_cancelled] ++ steps 20)
    = Some ([0; 1; 13], Some (Err (Cancelled 9)), Gone) /\
  NoDup (map fst [("n", 0)]).
Proof. repeat split; try (vm_compute; reflexivity). repeat constructor. intros []. Qed.

(** A loop that returns a value and is cancelled while its routine is between two items may write an
    unfinished value before the output fails: the flag of the writer is set and makes the routine stop as
    if it had finished, but the stream is not closed yet *)
Definition ex_cancelled : list (op nat nat) :=
  map (@Write_input nat nat) [1; 2] ++ [Close_input None] ++ steps 5 ++ [Cancel 9; Call_on_cancel] ++ steps 2 ++ [Close_cancelled].
Theorem C58_cancelled_value_refuted : exists ops out st p,
  ex_run Returns ex_sum ops = Some (out, st, p) /\ st = Some (Err (Cancelled 9)) /\
  ~ prefix out (fst (ex_due Returns ex_sum ops)).
Proof.
  exists ex_cancelled, [1], (Some (Err (Cancelled 9))), Closing. split; [vm_compute; reflexivity|]. split; [reflexivity|].
  intros [c H]. vm_compute in H. discriminate H.
Qed.
Print Assumptions C58_cancelled_value_refuted.
