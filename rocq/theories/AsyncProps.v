(** The properties of asynchronous evaluation (C43). *)
From Coq Require Import ZArith List Bool PeanoNat Lia.
From Verif Require Import FutureModel AsyncModel AsyncSpec AsyncProofs.
Import ListNotations.
Local Open Scope nat_scope.

(** In all statements, [inputs] are the values ([Some]) and futures ([None])
    that an operator is applied to, and [ops] is any sequence of steps of any
    threads. *)

(** No step crashes: no input is set twice and the result is set at most once. *)
Theorem C43_no_crash : forall value status (orphaned missing : status)
    (eval : list value -> result value status) inputs ops o,
  let out := snd (step orphaned missing eval (after orphaned missing eval inputs ops) o) in
  out = Done \/ out = Impossible.
Proof.
  intros value status orphaned missing eval inputs ops o.
  exact (proj1 (step_invariant _ _ _ _ _ _ o (run_invariant orphaned missing eval inputs ops))).
Qed.

(** The result is the first error that arrived; without errors it is the value
    of the operator on all inputs, each at its place; or it says that the
    evaluation was abandoned, after somebody dropped a part of it. *)
Theorem C43_result : forall value status (orphaned missing : status)
    (eval : list value -> result value status) inputs ops r,
  let t := observe orphaned missing eval inputs ops in
  given (after orphaned missing eval inputs ops) = Some r ->
  match first_error t with
  | Some st => r = Error st
  | None => (exists vs, filled inputs t = map Some vs /\ r = eval vs)
            \/ (r = Error orphaned /\ dropped t)
  end.
Proof.
  intros value status orphaned missing eval inputs ops r t G.
  destruct (i_phase _ _ _ _ _ (run_invariant orphaned missing eval inputs ops)) as
    [P1 P2 P3 P4 P5 P6 P7|e P1 P2 P3 P4 P5 P6|e P1 P2 P3 P4 P5 P6
    |P1 P2 P3 P4 P5 P6 P7|P1 P2 P3 P4 P5 P6|e P1 P2 P3 P4 P5 P6 P7]; try congruence.
  - unfold t. rewrite P6. congruence.
  - unfold t. rewrite P5. assert (r = e) by congruence. now subst e.
Qed.

(** Once there is a result, it does not change. *)
Theorem C43_result_is_final : forall value status (orphaned missing : status)
    (eval : list value -> result value status) inputs ops o r,
  given (after orphaned missing eval inputs ops) = Some r ->
  given (after orphaned missing eval inputs (ops ++ [o])) = Some r.
Proof. intros value status orphaned missing eval. exact (given_stable orphaned missing eval). Qed.

(** Every evaluation ends after finitely many steps, and with a result. *)
Theorem C43_settles : forall value status (orphaned missing : status)
    (eval : list value -> result value status) inputs ops,
  length (filter done (observe orphaned missing eval inputs ops)) <= 4 * length inputs + 4
  /\ (settled orphaned missing eval (after orphaned missing eval inputs ops) ->
      given (after orphaned missing eval inputs ops) <> None).
Proof.
  intros value status orphaned missing eval inputs ops. split; [|apply settled_given].
  pose proof (run_measure orphaned missing eval inputs ops) as M.
  assert (L : length (future_inputs 0 inputs) <= length inputs).
  { clear M. generalize 0. induction inputs as [|[x|] l IH]; intros n; cbn; [lia|..]; specialize (IH (S n)); lia. }
  assert (measure (async_eval inputs : countdown value status) <= 4 * length inputs + 4); [|lia].
  unfold measure, async_eval. cbn [awaited threads tasks result_writer length].
  destruct (_ =? 0); cbn [length]; lia.
Qed.

(** Two futures and a value: both orders of arrival, and an error that overtakes. *)
Definition plus (l : list nat) : result nat nat := Value (fold_right Nat.add 0 l).

Example C43_hypotheses_met :
  let inputs := [None; Some 10; None] in
  let good := [Arrive 2 (Value 5); Arrive 0 (Value 1); Step 0; RunTask 0] in
  let bad := [Arrive 2 (Error 8); Arrive 0 (Error 9); Step 0] in
  given (after 1 2 plus inputs good) = Some (Value 16)
  /\ filled inputs (observe 1 2 plus inputs good) = map Some [1; 10; 5]
  /\ settled 1 2 plus (after 1 2 plus inputs good)
  /\ given (after 1 2 plus inputs bad) = Some (Error 8)
  /\ given (after 1 2 plus inputs [Arrive 2 (Error 8); Arrive 0 (Value 3)]) = None
  /\ given (after 1 2 plus [Some 3; Some 4] [Step 0; RunTask 0]) = Some (Value 7)
  /\ given (after 1 2 plus [None] [DropConsumer 0; Release]) = Some (Error 1).
Proof.
  repeat match goal with |- _ /\ _ => split | |- let _ := _ in _ => intro end;
    try (vm_compute; reflexivity).
  intros [i r|i|k|k|k|]; try reflexivity; destruct k; reflexivity.
Qed.

Print Assumptions C43_no_crash.
Print Assumptions C43_result.
Print Assumptions C43_result_is_final.
Print Assumptions C43_settles.
