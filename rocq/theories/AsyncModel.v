(** Asynchronous evaluation of an operator on values and futures
    (koladata/functor/parallel/async_eval.cc).

    A run is a sequence of steps of any threads; a step is one locked section of
    AsyncCountdown, or the action of a thread between two locked sections.
    Values, errors and the operator are arbitrary. *)
From Coq Require Import ZArith List Bool PeanoNat.
From Verif Require Import FutureModel.
Import ListNotations.
Local Open Scope nat_scope.

Section Model.
  Variables value status : Type.
  (** future.cc:100 and async_eval.cc:118-119 *)
  Variables orphaned missing_input : status.
  (** async_eval.cc:124-125, the operator applied to the input values *)
  Variable eval : list value -> result value status.

  (** Where the FutureWriter of the result is: in the countdown, in the task
      that was given to the executor, or it was used. *)
  Inductive place := InCountdown | InTask | Used.

  (** What a thread has still to do. *)
  Inductive thread :=
  | ReportError (st : status)          (* 67 *)
  | Schedule.                          (* 95-97, 198 *)

  Record countdown := Countdown {
    remaining_tasks : Z;
    error_reported : bool;
    input_values : list (option value);
    result_writer : place;
    (* the result future, and attempts to set it by a writer that has no
       pointer any more (FATAL, future.cc:91-93) *)
    given : option (result value status);
    (* inputs whose consumer was neither called nor dropped *)
    awaited : list nat;
    threads : list thread;
    tasks : list (list (option value)) }.

  (** async_eval.cc:170-178; an input is a value, or a future ([None]). *)
  Fixpoint future_inputs (i : nat) (inputs : list (option value)) : list nat :=
    match inputs with
    | [] => []
    | None :: l => i :: future_inputs (S i) l
    | Some _ :: l => future_inputs (S i) l
    end.

  (** async_eval.cc:159-206 AsyncEvalWithCompilationCache *)
  Definition async_eval (inputs : list (option value)) : countdown :=
    let futures := future_inputs 0 inputs in
    Countdown (Z.of_nat (length futures)) false inputs InCountdown None futures
      (if length futures =? 0 then [Schedule] else []) [].

  Inductive output :=
  | Done
  | OutOfBounds                        (* LOG(FATAL), 79-82 *)
  | SetTwice                           (* LOG(FATAL), 83-85 *)
  | MovedFrom                          (* LOG(FATAL), future.cc:91-93 *)
  | Impossible.

  Definition set_result (s : countdown) (from : place) (r : result value status)
      (ths : list thread) (tks : list (list (option value))) : countdown * output :=
    match from, result_writer s with
    | InCountdown, InCountdown | InTask, InTask =>
        (Countdown (remaining_tasks s) (error_reported s) (input_values s) Used (Some r)
           (awaited s) ths tks, Done)
    | _, _ => (s, MovedFrom)
    end.

  (** async_eval.cc:58-98 AsyncCountdown::SetInput, up to the end of its locked
      section.  That no value is itself a future (70-75) is assumed. *)
  Definition set_input (s : countdown) (i : nat) (r : result value status)
    : countdown * output :=
    let aw := remove Nat.eq_dec i (awaited s) in
    match r with
    | Error st =>
        (* 59-69 *)
        if error_reported s then
          (Countdown (remaining_tasks s) true (input_values s) (result_writer s) (given s)
             aw (threads s) (tasks s), Done)
        else
          (Countdown (remaining_tasks s) true (input_values s) (result_writer s) (given s)
             aw (threads s ++ [ReportError st]) (tasks s), Done)
    | Value v =>
        (* 76-94 *)
        match nth_error (input_values s) i with
        | None => (s, OutOfBounds)
        | Some (Some _) => (s, SetTwice)
        | Some None =>
            let remaining := (remaining_tasks s - 1)%Z in
            let should_schedule := (remaining =? 0)%Z && negb (error_reported s) in
            (Countdown remaining (error_reported s) (update (input_values s) i (Some v))
               (result_writer s) (given s) aw
               (if should_schedule then threads s ++ [Schedule] else threads s) (tasks s), Done)
        end
    end.

  (** async_eval.cc:115-123 *)
  Fixpoint all_set (l : list (option value)) : option (list value) :=
    match l with
    | [] => Some []
    | None :: _ => None
    | Some v :: l => match all_set l with Some vs => Some (v :: vs) | None => None end
    end.

  Fixpoint remove_nth {A} (k : nat) (l : list A) : list A :=
    match l, k with
    | [], _ => []
    | _ :: l, 0 => l
    | x :: l, S k => x :: remove_nth k l
    end.

  Inductive op :=
  | Arrive (i : nat) (r : result value status)   (* the consumer of input i is called, 200-203 *)
  | DropConsumer (i : nat)      (* the consumer of input i is destroyed without a call *)
  | Step (k : nat)              (* thread k goes on *)
  | RunTask (k : nat)           (* the executor runs a task *)
  | DropTask (k : nat)          (* the executor destroys a task *)
  | Release.                    (* nobody has a pointer to the countdown any more *)

  Definition step (s : countdown) (o : op) : countdown * output :=
    match o with
    | Arrive i r =>
        if existsb (Nat.eqb i) (awaited s) then set_input s i r else (s, Impossible)
    | DropConsumer i =>
        if existsb (Nat.eqb i) (awaited s) then
          (Countdown (remaining_tasks s) (error_reported s) (input_values s) (result_writer s)
             (given s) (remove Nat.eq_dec i (awaited s)) (threads s) (tasks s), Done)
        else (s, Impossible)
    | Step k =>
        match nth_error (threads s) k with
        | None => (s, Impossible)
        | Some (ReportError st) =>
            set_result s InCountdown (Error st) (remove_nth k (threads s)) (tasks s)
        | Some Schedule =>
            (* 100-127; the writer and the values move into the task *)
            match result_writer s with
            | InCountdown =>
                (Countdown (remaining_tasks s) (error_reported s) [] InTask (given s) (awaited s)
                   (remove_nth k (threads s)) (tasks s ++ [input_values s]), Done)
            | _ => (s, MovedFrom)
            end
        end
    | RunTask k =>
        match nth_error (tasks s) k with
        | None => (s, Impossible)
        | Some inputs =>
            set_result s InTask
              match all_set inputs with
              | None => Error missing_input
              | Some vs => eval vs
              end
              (threads s) (remove_nth k (tasks s))
        end
    | DropTask k =>
        (* the destructor of the writer, future.cc:98-102 *)
        match nth_error (tasks s) k with
        | None => (s, Impossible)
        | Some _ => set_result s InTask (Error orphaned) (threads s) (remove_nth k (tasks s))
        end
    | Release =>
        match awaited s, threads s, result_writer s with
        | [], [], InCountdown =>
            set_result s InCountdown (Error orphaned) (threads s) (tasks s)
        | _, _, _ => (s, Impossible)
        end
    end.

  Fixpoint run (s : countdown) (ops : list op) : countdown * list output :=
    match ops with
    | [] => (s, [])
    | o :: ops =>
        let so := step s o in
        let sr := run (fst so) ops in
        (fst sr, snd so :: snd sr)
    end.
End Model.

Arguments ReportError {status}.
Arguments Schedule {status}.
Arguments remaining_tasks {value status}.
Arguments error_reported {value status}.
Arguments input_values {value status}.
Arguments result_writer {value status}.
Arguments given {value status}.
Arguments awaited {value status}.
Arguments threads {value status}.
Arguments tasks {value status}.
Arguments Countdown {value status}.
Arguments future_inputs {value}.
Arguments async_eval {value status}.
Arguments set_result {value status}.
Arguments set_input {value status}.
Arguments all_set {value}.
Arguments remove_nth {A}.
Arguments Arrive {value status}.
Arguments DropConsumer {value status}.
Arguments Step {value status}.
Arguments RunTask {value status}.
Arguments DropTask {value status}.
Arguments Release {value status}.
Arguments step {value status}.
Arguments run {value status}.
