(** C60: a parallel while loop does what a while loop does. *)
From Coq Require Import String.
From Coq Require Import List Bool Arith Lia.
From Verif Require Import ForModel ForSpec WhileModel WhileSpec WhileProofs.
Import ListNotations.
Local Open Scope string_scope.
Local Open Scope nat_scope.
Local Open Scope list_scope.

Section Properties.
Variables (value type E : Type).
Variable type_of : value -> type.
Variable type_eqb : type -> type -> bool.
Hypothesis type_eqb_spec : forall a b, type_eqb a b = true <-> a = b.
Variable m : mode.
Variables (condition_functor : variables value -> condition E) (body_functor : variables value -> returned value E).
Variables (last : string) (initial : value) (initial_state : variables value).
(** The initial state is a namedtuple: its names differ *)
Hypothesis names : NoDup (map fst initial_state).
Notation w_run := (w_run type_of type_eqb m condition_functor body_functor initial).
Notation while_loop := (while_loop type_of type_eqb m condition_functor body_functor last initial initial_state).

Lemma w_start_fresh s0 : w_start (E := E) m last initial initial_state = Some s0 -> ~ In last (map fst initial_state).
Proof.
  unfold w_start. destruct (existsb _ _) eqn:X; [discriminate|]. intros _ H. apply in_map_iff in H. destruct H as ([k v] & K & H).
  cbn in K. subst k. apply not_true_iff_false in X. apply X. apply existsb_exists. exists (last, v). split; [exact H|apply String.eqb_refl].
Qed.

(** What is written at any time is the beginning of what the loop writes that may call the body as often
    as there were steps, or more often; if the loop returns a value, this is so unless it is cancelled *)
Theorem C60_prefix : forall s0 ops,
  w_start m last initial initial_state = Some s0 ->
  m = Yields \/ (forall e, ~ In (W_cancel e) ops) ->
  forall n, length ops <= n -> prefix (w_written (w_run s0 ops)) (fst (while_loop n)).
Proof.
  intros s0 ops B. exact (while_prefix value type E type_of type_eqb type_eqb_spec m condition_functor body_functor last initial
    initial_state names (w_start_fresh s0 B) s0 B ops).
Qed.

(** If the output succeeds, then so does the loop, and it writes the same; also if it was cancelled at any time *)
Theorem C60_success : forall s0 ops,
  w_start m last initial initial_state = Some s0 -> w_status (w_run s0 ops) = Some OK ->
  forall n, length ops <= n -> while_loop n = (w_written (w_run s0 ops), Ends OK).
Proof.
  intros s0 ops B. exact (while_success value type E type_of type_eqb type_eqb_spec m condition_functor body_functor last initial
    initial_state names (w_start_fresh s0 B) s0 B ops).
Qed.

(** If the output fails, then so does the loop, with the same error after the same output, unless it was
    cancelled or the executor has shut down *)
Theorem C60_error : forall s0 ops e,
  w_start m last initial initial_state = Some s0 -> w_status (w_run s0 ops) = Some (Err e) ->
  (forall n, length ops <= n -> while_loop n = (w_written (w_run s0 ops), Ends (Err e))) \/
  (exists c, In (W_cancel c) ops /\ (e = Cancelled c \/ e = Orphaned)) \/ (In W_shutdown ops /\ e = Orphaned).
Proof.
  intros s0 ops e B. exact (while_error value type E type_of type_eqb type_eqb_spec m condition_functor body_functor last initial
    initial_state names (w_start_fresh s0 B) s0 B ops e).
Qed.

(** When the routine is done, everything is written and the output is closed as it has to be *)
Theorem C60_complete : forall s0 ops,
  w_start m last initial initial_state = Some s0 ->
  ~ In W_expire ops -> (forall e, ~ In (W_cancel e) ops) -> ~ In W_shutdown ops ->
  w_at (w_run s0 ops) = Dropped ->
  exists st, w_status (w_run s0 ops) = Some st /\
    forall n, length ops <= n -> while_loop n = (w_written (w_run s0 ops), Ends st).
Proof.
  intros s0 ops B. exact (while_complete value type E type_of type_eqb type_eqb_spec m condition_functor body_functor last initial
    initial_state names (w_start_fresh s0 B) s0 B ops).
Qed.

(** If the loop ends after at most n times, then after anything that happened but these, the routine is done
    after at most 6 n + 10 steps, each followed by the notification that it may wait for, and whether or not
    the conditions are there at once *)
Theorem C60_ends : forall s0 ops n out st nows,
  w_start m last initial initial_state = Some s0 ->
  ~ In W_expire ops -> (forall e, ~ In (W_cancel e) ops) -> ~ In W_shutdown ops ->
  while_loop n = (out, Ends st) -> 6 * n + 10 <= length nows ->
  let s := w_run s0 (ops ++ flat_map (fun now => [W_step now; W_notify]) nows) in
  w_at s = Dropped /\ w_written s = out /\ w_status s = Some st.
Proof.
  intros s0 ops n out st nows B. exact (while_ends value type E type_of type_eqb type_eqb_spec m condition_functor body_functor last initial
    initial_state names (w_start_fresh s0 B) s0 B ops n out st nows).
Qed.
End Properties.
Print Assumptions C60_prefix.
Print Assumptions C60_success.
Print Assumptions C60_error.
Print Assumptions C60_complete.
Print Assumptions C60_ends.

(** * Examples: numbers, all of one type; the variable n counts down, and r is returned or yielded *)
Definition ex_get (n : string) (l : variables nat) : nat := match given n l with Some v => v | None => 0 end.
Definition ex_condition (l : variables nat) : condition nat := if ex_get "n" l =? 0 then No else if ex_get "n" l =? 50 then Bad 5 else Yes.
(** n!, in r *)
Definition ex_factorial (l : variables nat) : returned nat nat :=
  Namedtuple [("n", ex_get "n" l - 1); ("r", ex_get "r" l * ex_get "n" l)].
(** The even numbers among n; fails at 7 *)
Definition ex_even (l : variables nat) : returned nat nat :=
  if ex_get "n" l =? 7 then Error_of 77
  else if Nat.even (ex_get "n" l) then Namedtuple [("r", ex_get "n" l); ("n", ex_get "n" l - 1)] else Namedtuple [("n", ex_get "n" l - 1)].
Definition ex_run (m : mode) (b : variables nat -> returned nat nat) (n : nat) (ops : list (event nat)) :=
  match w_start m "r" 1 [("n", n)] with
  | Some s0 => let s := w_run (fun _ => tt) (fun _ _ => true) m ex_condition b 1 s0 ops in Some (w_written s, w_status s, w_at s)
  | None => None
  end.
Definition ex_loop (m : mode) (b : variables nat -> returned nat nat) (n : nat) :=
  while_loop (fun _ => tt) (fun _ _ => true) m ex_condition b "r" 1 [("n", n)].
Definition steps (n : nat) : list (event nat) := repeat (W_step true) n.
Example C60_hypotheses_met :
  ex_run Returns ex_factorial 5 (steps 3 ++ [W_step false; W_step true] ++ steps 30) = Some ([120], Some OK, Dropped) /\
  ex_run Returns ex_factorial 5 (steps 2 ++ [W_step false; W_step true] ++ steps 30) = Some ([], None, Sleeping) /\
  ex_run Returns ex_factorial 5 (steps 2 ++ [W_step false; W_step true; W_notify] ++ steps 30) = Some ([120], Some OK, Dropped) /\
  ex_loop Returns ex_factorial 5 5 = ([120], Ends OK) /\ ex_loop Returns ex_factorial 5 4 = ([], Going) /\
  ex_run Yields ex_even 6 (steps 60) = Some ([1; 6; 4; 2], Some OK, Dropped) /\
  ex_loop Yields ex_even 6 6 = ([1; 6; 4; 2], Ends OK) /\
  ex_run Yields ex_even 9 (steps 60) = Some ([1; 8], Some (Err (Given 77)), Dropped) /\
  ex_run Yields ex_even 6 (steps 9) = Some ([1; 6], None, Running) /\
  ex_run Yields ex_even 50 (steps 9) = Some ([1], Some (Err (Given 5)), Dropped) /\
  ex_run Returns (fun _ => Other) 5 (steps 9) = Some ([], Some (Err BadUpdate), Dropped) /\
  ex_run Returns (fun _ => Namedtuple [("k", 1)]) 5 (steps 9) = Some ([], Some (Err BadUpdate), Dropped) /\
  ex_run Yields ex_even 6 (steps 9 ++ [W_cancel 3; W_on_cancel; W_close_cancelled] ++ steps 9) = Some ([1; 6], Some (Err (Cancelled 3)), Dropped) /\
  ex_run Yields ex_even 6 (steps 1 ++ W_shutdown :: steps 9) = Some ([1], Some (Err Orphaned), Dropped).
Proof. vm_compute. repeat split; reflexivity. Qed.

(** A cancelled loop that returns a value can write an unfinished value before its output fails: here 20 for 5! *)
Theorem C60_cancelled_value_refuted : exists ops, 
  ex_run Returns ex_factorial 5 ops = Some ([20], Some (Err (Cancelled 3)), Dropped) /\
  forall n, ~ prefix [20] (fst (ex_loop Returns ex_factorial 5 n)).
Proof.
  exists (steps 6 ++ [W_cancel 3; W_on_cancel] ++ steps 3 ++ W_close_cancelled :: steps 9). split; [vm_compute; reflexivity|].
  intros n [c H]. do 6 (destruct n as [|n]; [vm_compute in H; discriminate H|]).
  assert (X : ex_loop Returns ex_factorial 5 (S (S (S (S (S (S n)))))) = ([120], Ends OK)) by reflexivity.
  rewrite X in H. discriminate H.
Qed.
Print Assumptions C60_cancelled_value_refuted.
