(** A loop over a stream goes on, and it rests only when it has to wait. *)
From Coq Require Import String.
From Coq Require Import List Bool Arith Lia.
From Verif Require Import ForModel ForSpec ForProofs ForRunProofs.
Import ListNotations.
Local Open Scope list_scope.

Section Work.
Variables (value type E : Type).
Variable type_of : value -> type.
Variable type_eqb : type -> type -> bool.
Hypothesis type_eqb_spec : forall a b, type_eqb a b = true <-> a = b.
Variables (m : mode) (f : functors value E) (last : string) (initial : value) (l0 : variables value).
Hypothesis names : NoDup (map fst l0).
Hypothesis fresh : ~ In last (map fst l0).
Notation step := (step type_of type_eqb m f initial).
Notation routine_step := (routine_step type_of type_eqb m f initial).
Notation state := (state value E).

Definition rank (s : state) : nat :=
  match at_ s with
  | Subscribing At_start => 19 | Waiting At_start => 18 | Queued At_start => 17
  | Calling_body _ => 16 | Yielding false => 15 | Calling_condition => 14
  | Subscribing On_condition => 13 | Waiting On_condition => 12 | Queued On_condition => 11
  | Queued On_input => 11
  | Subscribing On_input => if ready On_input s then 13 else 9
  | Waiting On_input => if ready On_input s then 12 else 8
  | Reading => 10
  | Finalizing => 7 | Yielding true => 6 | Succeeding => 5 | Closing => 4 | Failing _ => 4
  | Leaving => 1 | Gone => 0
  end.
Definition work (s : state) : nat := 20 * (length (log s) - position s) + rank s.

(** A routine waits for a condition only if there is one *)
Definition waits (p : pc value E) : Prop :=
  match p with
  | Queued On_condition | Subscribing On_condition | Waiting On_condition => loop_condition f <> None
  | _ => True
  end.
Lemma step_waits s o : waits (at_ s) -> waits (at_ (step s o)).
Proof.
  intros H. destruct o; cbn [ForModel.step].
  - unfold ForModel.routine_step. destruct (at_ s) as [[]| | |v|fin| | | |e|[]|w| |] eqn:A; cbn; try exact Logic.I; try (rewrite A; exact H).
    + destruct (loop_condition f) as [c|]; [|now rewrite A]. now destruct (c _).
    + destruct (orphaned s); [exact Logic.I|]. destruct (loop_condition f) as [c|] eqn:LC; [|exact Logic.I].
      destruct now; [now destruct (c _)|]. cbn. now rewrite LC.
    + destruct (nth_error _ _); [exact Logic.I|]. now destruct (in_closed s) as [[]|].
    + destruct (orphaned s); [exact Logic.I|]. unfold apply_update. destruct (update _ _ _ _); [|exact Logic.I]. now destruct m.
    + destruct (changed s); [|now destruct fin]. destruct (last_value _); [|now rewrite A].
      destruct (try_write _ _) as [[] ?]; now destruct fin.
    + destruct (orphaned s); [exact Logic.I|]. destruct (finalize f); [|exact Logic.I].
      unfold apply_update. destruct (update _ _ _ _); [|exact Logic.I]. now destruct m.
    + destruct m; [|exact Logic.I]. destruct (last_value _); [|now rewrite A]. destruct (try_write _ _) as [[] ?]; exact Logic.I.
    + now destruct (interrupted s).
    + now destruct (interrupted s).
    + destruct (interrupted s); [exact Logic.I|exact H].
  - destruct (at_ s) as [w| | |v|fin| | | |e|w|w| |] eqn:A; try (rewrite A; exact H).
    destruct (ready w s); [|rewrite A; exact H]. destruct (interrupted s); [exact Logic.I|]. now destruct w.
  - now destruct (in_closed s).
  - now destruct (in_closed s).
  - exact H.
  - now destruct (cancelled s).
  - destruct (cancelled s); [|exact H]. destruct (notified s), (at_ s) eqn:A; cbn; rewrite ?A; exact H.
  - now destruct (cancelling s).
  - destruct (at_ s) eqn:A; cbn; rewrite ?A; try exact H; exact Logic.I.
Qed.
Lemma run_waits ops : forall s, waits (at_ s) -> waits (at_ (run type_of type_eqb m f initial s ops)).
Proof. induction ops as [|o ops IH]; intros s H; [exact H|]. apply IH. now apply step_waits. Qed.

(** A step of a routine that is neither waiting nor gone *)
Ltac ranks A := unfold work, rank; rewrite ?A; cbn; lia.
Lemma routine_works s now : inv value type E type_of type_eqb m f last initial l0 s -> waits (at_ s) ->
  at_ s <> Gone -> (forall w, at_ s <> Waiting w) -> work (routine_step now s) < work s.
Proof.
  intros V W G N. unfold ForModel.routine_step.
  assert (LV : exists v, last_value (vars s) = Some v).
  { destruct (result_last value type type_of last initial l0 names fresh (vars s) (i_sigs _ _ _ _ _ _ _ _ _ _ _ V)) as (v & LV & _). now exists v. }
  destruct LV as [v0 LV].
  destruct (at_ s) as [[]| | |v|fin| | | |e|w|w| |] eqn:A; try (now destruct (N w)); try (now destruct G).
  - ranks A.
  - ranks A.
  - cbn in W. destruct (loop_condition f) as [c|]; [|congruence]. destruct (c _); ranks A.
  - destruct (orphaned s); [ranks A|]. destruct (loop_condition f) as [c|]; [|ranks A].
    destruct now; [destruct (c _); ranks A|ranks A].
  - destruct (nth_error (log s) (position s)) as [v|] eqn:NE.
    + assert (position s < length (log s)) by (apply nth_error_Some; congruence). ranks A.
    + destruct (in_closed s) as [[]|] eqn:IC; [ranks A|ranks A|].
      unfold work, rank. rewrite A. cbn. rewrite NE, IC. lia.
  - destruct (orphaned s); [ranks A|]. unfold apply_update. destruct (update _ _ _ _); [|ranks A]. destruct m; ranks A.
  - destruct (changed s); [|destruct fin; ranks A]. rewrite LV. unfold try_write.
    destruct (expired s); [destruct fin; ranks A|]. destruct (out_status s); destruct fin; ranks A.
  - destruct (orphaned s); [ranks A|]. destruct (finalize f); [|ranks A].
    unfold apply_update. destruct (update _ _ _ _); [|ranks A]. destruct m; ranks A.
  - destruct m.
    + rewrite LV. unfold try_write. destruct (expired s); [ranks A|]. destruct (out_status s); ranks A.
    + unfold try_close. destruct (flag s); ranks A.
  - unfold try_close. destruct (flag s); ranks A.
  - unfold try_close. destruct (flag s); ranks A.
  - destruct (interrupted s).
    + destruct w; [ranks A| |ranks A]. unfold work, rank. rewrite A. cbn [at_ goto log position]. destruct (ready On_input s); lia.
    + destruct w; [ranks A| |ranks A]. unfold work, rank. rewrite A. cbn [at_ goto log position].
      change (ready On_input (goto (Waiting On_input) s)) with (ready On_input s). destruct (ready On_input s); lia.
  - unfold try_close. destruct (flag s); ranks A.
Qed.
Lemma notify_works s w : at_ s = Waiting w -> ready w s = true -> work (step s Notify) < work s.
Proof.
  intros A R. cbn [ForModel.step]. rewrite A, R. unfold work, rank. rewrite A.
  destruct (interrupted s); destruct w; cbn [at_ goto log position]; rewrite ?R; lia.
Qed.

Lemma goes_on s0 ops (s := run type_of type_eqb m f initial s0 ops) : start m last initial l0 = Some s0 ->
  (at_ s <> Gone -> (forall w, at_ s <> Waiting w) -> forall now, work (step s (Step now)) < work s) /\
  (forall w, at_ s = Waiting w -> ready w s = true -> work (step s Notify) < work s).
Proof.
  intros B. split; [|apply notify_works]. intros G N now.
  destruct (started value type E type_of type_eqb type_eqb_spec m f last initial l0 names fresh s0 ops B) as (V & _).
  apply routine_works; auto. apply run_waits.
  unfold start in B. destruct (existsb _ _); [discriminate|]. injection B as <-. exact Logic.I.
Qed.
End Work.
