(** C59: reducing a stream gives the fold of the functor over its items. *)
From Coq Require Import List Bool Arith Lia.
From Verif Require Import ReduceModel ReduceSpec ReduceProofs.
Import ListNotations.

Section Properties.
Variables (value type E : Type).
Variable type_of : value -> type.
Variable type_eqb : type -> type -> bool.
Variable functor : value -> value -> value + E.
Variable initial : value.
Notation due := (due type_of type_eqb functor initial).
Notation run := (run type_of type_eqb functor initial).

(** At any time, and whoever cancels, nothing is written, or the fold over all items of an input that
    is closed: never the fold over only some of the items *)
Theorem C59_value : forall ops, written (run ops) = [] \/
  exists v, written (run ops) = [v] /\ due (fst (input ops)) (snd (input ops)) = Some (inl v).
Proof. exact (top_value value type E type_of type_eqb functor initial). Qed.

(** If the output succeeds, it holds this value *)
Theorem C59_success : forall ops, out_status (run ops) = Some OK ->
  exists v, due (fst (input ops)) (snd (input ops)) = Some (inl v) /\ written (run ops) = [v].
Proof. exact (top_success value type E type_of type_eqb functor initial). Qed.

(** If it fails, then the fold does, or the input, with this error, unless the computation was cancelled
    or the executor has shut down *)
Theorem C59_error : forall ops e, out_status (run ops) = Some (Err e) ->
  (due (fst (input ops)) (snd (input ops)) = Some (inr e) /\ written (run ops) = []) \/
  (exists c, In (Cancel c) ops /\ (e = Cancelled c \/ e = Orphaned)) \/ (In Shutdown ops /\ e = Orphaned).
Proof. exact (top_error value type E type_of type_eqb functor initial). Qed.

(** When the routine is done, or waits for what has not come, the output is what it has to be *)
Theorem C59_complete : forall ops,
  ~ In Expire ops -> (forall e, ~ In (Cancel e) ops) -> ~ In Shutdown ops ->
  at_ (run ops) = Gone \/ (at_ (run ops) = Waiting /\ ready (run ops) = false) ->
  match due (fst (input ops)) (snd (input ops)) with
  | None => written (run ops) = [] /\ out_status (run ops) = None
  | Some (inl v) => written (run ops) = [v] /\ out_status (run ops) = Some OK
  | Some (inr e) => written (run ops) = [] /\ out_status (run ops) = Some (Err e)
  end.
Proof. exact (top_complete value type E type_of type_eqb functor initial). Qed.

(** It gets there: a routine that is neither done nor waiting makes a step, one whose input is there is
    notified, and there are only so many steps until something comes from outside *)
Theorem C59_goes_on : exists work : state value E -> nat, forall s,
  (at_ s <> Gone -> at_ s <> Waiting -> work (step type_of type_eqb functor initial s Step) < work s) /\
  (at_ s = Waiting -> ready s = true -> work (step type_of type_eqb functor initial s Notify) < work s).
Proof.
  exists (work value E). intros s. split.
  - exact (routine_works value type E type_of type_eqb functor initial s).
  - exact (notify_works value type E type_of type_eqb functor initial s).
Qed.

(** So, after anything that happened but these, it can go on to the right output by itself *)
Theorem C59_ends : forall ops, ~ In Expire ops -> (forall e, ~ In (Cancel e) ops) -> ~ In Shutdown ops ->
  exists more, Forall (fun o => o = Step \/ o = Notify) more /\
  match due (fst (input ops)) (snd (input ops)) with
  | None => written (run (ops ++ more)) = [] /\ out_status (run (ops ++ more)) = None
  | Some (inl v) => written (run (ops ++ more)) = [v] /\ out_status (run (ops ++ more)) = Some OK
  | Some (inr e) => written (run (ops ++ more)) = [] /\ out_status (run (ops ++ more)) = Some (Err e)
  end.
Proof. exact (top_ends value type E type_of type_eqb functor initial). Qed.
End Properties.
Print Assumptions C59_value.
Print Assumptions C59_success.
Print Assumptions C59_error.
Print Assumptions C59_complete.
Print Assumptions C59_goes_on.
Print Assumptions C59_ends.

(** * Examples: numbers, of the type "even" or "odd"; the functor is 10 * a + x, and fails at 7 *)
Definition ex_functor (a x : nat) : nat + nat := if x =? 7 then inr 77 else inl (10 * a + x).
Definition ex_run (ops : list (op nat nat)) : list nat * option (status nat) * pc nat nat :=
  let s := run Nat.even Bool.eqb ex_functor 0 ops in (written s, out_status s, at_ s).
Definition ex_due (ops : list (op nat nat)) := due Nat.even Bool.eqb ex_functor 0 (fst (input ops)) (snd (input ops)).
Definition steps (n : nat) : list (op nat nat) := repeat Step n.
Definition ex_ops : list (op nat nat) :=
  Write_input 4 :: steps 9 ++ [Notify; Write_input 2; Notify] ++ steps 9 ++ [Write_input 6; Close_input None; Notify] ++ steps 9.
Example C59_hypotheses_met :
  ex_run ex_ops = ([426], Some OK, Gone) /\ ex_due ex_ops = Some (inl 426) /\
  ex_run (Write_input 4 :: steps 9) = ([], None, Waiting) /\ ex_due (Write_input 4 :: steps 9) = None /\
  ex_run ([Write_input 4; Write_input 7; Write_input 3] ++ steps 9) = ([], Some (Err (Given 77)), Gone) /\
  ex_due [Write_input 4; Write_input 7; Write_input 3] = Some (inr (Given 77)) /\
  ex_run ([Write_input 4; Write_input 3; Write_input 7] ++ steps 9) = ([], Some (Err WrongType), Gone) /\
  ex_run ([Write_input 4; Close_input (Some 5)] ++ steps 9) = ([], Some (Err (Given 5)), Gone) /\
  ex_run (Close_input None :: steps 9) = ([0], Some OK, Gone) /\
  (* a cancelled computation: with the value written just before, and without *)
  ex_run ([Write_input 4; Close_input None] ++ steps 5 ++ [Cancel 1; Call_on_cancel; Step; Close_cancelled] ++ steps 3)
    = ([4], Some (Err (Cancelled 1)), Gone) /\
  ex_run ([Write_input 4; Write_input 2; Close_input None] ++ steps 4 ++ [Cancel 1; Call_on_cancel; Close_cancelled] ++ steps 5)
    = ([], Some (Err (Cancelled 1)), Gone) /\
  ex_run [Write_input 4; Step; Shutdown; Step] = ([], Some (Err Orphaned), Gone).
Proof. vm_compute. repeat split; reflexivity. Qed.
