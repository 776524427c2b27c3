(** Chaining and interleaving streams
    (koladata/functor/parallel/stream_composition.cc).

    The input streams are logs that other threads extend at any time and close
    at most once; a reader reads them in order and can subscribe a callback, as
    proved in C31 for the streams of stream.cc.  A run is a sequence of steps of
    any threads: adding an input, an action on an input stream, or one step of a
    thread of the scheduler, which is one locked section or one call of a reader
    or writer.  Values and errors are arbitrary. *)
From Coq Require Import List Bool PeanoNat.
Import ListNotations.
Local Open Scope nat_scope.

Section Model.
  Variables value error : Type.

  (** absl::Status *)
  Inductive status := OK | Err (e : error).

  (** An input stream: what was written, the status with which it was closed,
      the position of the reader and whether its callback is subscribed. *)
  Record input := Input {
    log : list value;
    closed : option status;
    position : nat;
    subscribed : bool }.

  (** StreamReader::TryRead *)
  Inductive read_result := Empty | Item (v : value) | Closed (st : status).
  Definition try_read (x : input) : read_result :=
    match nth_error (log x) (position x) with
    | Some v => Item v
    | None => match closed x with Some st => Closed st | None => Empty end
    end.

  Fixpoint update {A} (l : list A) (i : nat) (x : A) : list A :=
    match l, i with
    | [], _ => []
    | _ :: l, 0 => x :: l
    | y :: l, S i => y :: update l i x
    end.
  Fixpoint remove_nth {A} (k : nat) (l : list A) : list A :=
    match l, k with
    | [], _ => []
    | _ :: l, 0 => l
    | x :: l, S k => x :: remove_nth k l
    end.

  (** Writing to and closing an input stream, which takes its callback away. *)
  Definition extend (x : input) (v : value) : input :=
    Input (log x ++ [v]) (closed x) (position x) false.
  Definition finish (x : input) (st : status) : input :=
    Input (log x) (Some st) (position x) false.
  Definition advance (x : input) : input :=
    Input (log x) (closed x) (S (position x)) (subscribed x).
  Definition subscribe (x : input) : input :=
    Input (log x) (closed x) (position x) true.

  Inductive output :=
  | Done
  | Fatal            (* LOG(FATAL) of the writer: writing or closing after a close *)
  | CheckFailed      (* CHECK *)
  | Impossible.      (* there is no such input or thread, or it cannot do that *)

  (** * StreamChain *)

  (** Where a thread is in ProcessPendingInputs and ProcessInput. *)
  Inductive pc :=
  | Start                          (* 164 *)
  | Reading (i : nat)              (* 202, 205; i is active_input *)
  | Writing (i : nat) (v : value)  (* 204 *)
  | Popping                        (* 183-191 *)
  | Closing (st : status)          (* 211 *)
  | Clearing                       (* 178-181 *)
  | Subscribing (i : nat).         (* 221 *)

  Record chain := Chain {
    inputs : list input;             (* all inputs, in the order of AddInput *)
    pending_inputs : list nat;       (* 244 *)
    error_reported : bool;           (* 245 *)
    written : list value;            (* the output stream *)
    out_status : option status;
    threads : list pc;
    owned : bool;                    (* the StreamChain exists *)
    destroyed : bool }.              (* the Scheduler was destroyed *)

  (** 248-249 *)
  Definition make_chain : chain := Chain [] [] false [] None [] true false.

  Definition set_inputs (c : chain) (l : list input) (ths : list pc) : chain :=
    Chain l (pending_inputs c) (error_reported c) (written c) (out_status c) ths
      (owned c) (destroyed c).

  (** 107-127 AddInput, its locked section. The new input has any content. *)
  Definition add_input (c : chain) (x : input) : chain * output :=
    let n := length (inputs c) in
    if error_reported c then
      (Chain (inputs c ++ [x]) (pending_inputs c) (error_reported c) (written c) (out_status c)
         (threads c) (owned c) (destroyed c), Done)
    else
      (Chain (inputs c ++ [x]) (pending_inputs c ++ [n]) (error_reported c) (written c)
         (out_status c)
         (match pending_inputs c with [] => threads c ++ [Start] | _ => threads c end)
         (owned c) (destroyed c), Done).

  (** One step of thread k, which is at [p]. *)
  Definition thread_step (c : chain) (k : nat) (p : pc) : chain * output :=
    let goto q := update (threads c) k q in
    let exit := remove_nth k (threads c) in
    match p with
    | Start =>
        (* 166-171 *)
        match pending_inputs c with
        | [] => (c, CheckFailed)
        | i :: _ =>
            if error_reported c then (c, CheckFailed)
            else (set_inputs c (inputs c) (goto (Reading i)), Done)
        end
    | Reading i =>
        match nth_error (inputs c) i with
        | None => (c, Impossible)
        | Some x =>
            match try_read x with
            | Item v => (set_inputs c (update (inputs c) i (advance x)) (goto (Writing i v)), Done)
            | Closed OK => (set_inputs c (inputs c) (goto Popping), Done)
            | Closed (Err e) => (set_inputs c (inputs c) (goto (Closing (Err e))), Done)
            | Empty => (set_inputs c (inputs c) (goto (Subscribing i)), Done)
            end
        end
    | Writing i v =>
        match out_status c with
        | Some _ => (c, Fatal)
        | None =>
            (Chain (inputs c) (pending_inputs c) (error_reported c) (written c ++ [v])
               (out_status c) (goto (Reading i)) (owned c) (destroyed c), Done)
        end
    | Popping =>
        match pending_inputs c with
        | [] => (c, CheckFailed)
        | _ :: rest =>
            (Chain (inputs c) rest (error_reported c) (written c) (out_status c)
               (match rest with [] => exit | i :: _ => goto (Reading i) end)
               (owned c) (destroyed c), Done)
        end
    | Closing st =>
        match out_status c with
        | Some _ => (c, Fatal)
        | None =>
            (Chain (inputs c) (pending_inputs c) (error_reported c) (written c) (Some st)
               (goto Clearing) (owned c) (destroyed c), Done)
        end
    | Clearing =>
        (Chain (inputs c) [] true (written c) (out_status c) exit (owned c) (destroyed c), Done)
    | Subscribing i =>
        (* the callback runs at once if there is something to read *)
        match nth_error (inputs c) i with
        | None => (c, Impossible)
        | Some x =>
            match try_read x with
            | Empty => (set_inputs c (update (inputs c) i (subscribe x)) exit, Done)
            | _ => (set_inputs c (inputs c) (exit ++ [Start]), Done)
            end
        end
    end.

  Inductive op :=
  | Add (l : list value) (st : option status)  (* Add, AddItem, AddError *)
  | EnvWrite (i : nat) (v : value)      (* somebody writes to input i *)
  | EnvClose (i : nat) (st : status)    (* somebody closes input i *)
  | Step (k : nat)                      (* thread k goes on *)
  | Drop                                (* the StreamChain is destroyed *)
  | Destroy.                            (* the Scheduler is destroyed *)

  Definition subscribed_anywhere (l : list input) : bool := existsb subscribed l.

  Definition step (c : chain) (o : op) : chain * output :=
    match o with
    | Add l st =>
        if owned c then add_input c (Input l st 0 false) else (c, Impossible)
    | EnvWrite i v =>
        match nth_error (inputs c) i with
        | Some x =>
            match closed x with
            | Some _ => (c, Impossible)
            | None =>
                (set_inputs c (update (inputs c) i (extend x v))
                   (if subscribed x then threads c ++ [Start] else threads c), Done)
            end
        | None => (c, Impossible)
        end
    | EnvClose i st =>
        match nth_error (inputs c) i with
        | Some x =>
            match closed x with
            | Some _ => (c, Impossible)
            | None =>
                (set_inputs c (update (inputs c) i (finish x st))
                   (if subscribed x then threads c ++ [Start] else threads c), Done)
            end
        | None => (c, Impossible)
        end
    | Step k =>
        match nth_error (threads c) k with
        | Some p => thread_step c k p
        | None => (c, Impossible)
        end
    | Drop =>
        if owned c then
          (Chain (inputs c) (pending_inputs c) (error_reported c) (written c) (out_status c)
             (threads c) false (destroyed c), Done)
        else (c, Impossible)
    | Destroy =>
        (* 146-153: there are no callbacks, no running threads and no StreamChain *)
        match threads c with
        | [] =>
            if owned c || destroyed c || subscribed_anywhere (inputs c) then (c, Impossible)
            else match pending_inputs c with
                 | _ :: _ => (c, CheckFailed)
                 | [] =>
                     if error_reported c then
                       (Chain (inputs c) [] true (written c) (out_status c) [] false true, Done)
                     else match out_status c with
                          | Some _ => (c, Fatal)
                          | None =>
                              (Chain (inputs c) [] false (written c) (Some OK) [] false true, Done)
                          end
                 end
        | _ => (c, Impossible)
        end
    end.

  Fixpoint run (c : chain) (ops : list op) : chain * list output :=
    match ops with
    | [] => (c, [])
    | o :: ops =>
        let co := step c o in
        let cr := run (fst co) ops in
        (fst cr, snd co :: snd cr)
    end.
End Model.

Arguments OK {error}.
Arguments Err {error}.
Arguments Input {value error}.
Arguments log {value error}.
Arguments closed {value error}.
Arguments position {value error}.
Arguments subscribed {value error}.
Arguments Empty {value error}.
Arguments Item {value error}.
Arguments Closed {value error}.
Arguments try_read {value error}.
Arguments update {A}.
Arguments remove_nth {A}.
Arguments extend {value error}.
Arguments finish {value error}.
Arguments advance {value error}.
Arguments subscribe {value error}.
Arguments Start {value error}.
Arguments Reading {value error}.
Arguments Writing {value error}.
Arguments Popping {value error}.
Arguments Closing {value error}.
Arguments Clearing {value error}.
Arguments Subscribing {value error}.
Arguments Chain {value error}.
Arguments inputs {value error}.
Arguments pending_inputs {value error}.
Arguments error_reported {value error}.
Arguments written {value error}.
Arguments out_status {value error}.
Arguments threads {value error}.
Arguments owned {value error}.
Arguments destroyed {value error}.
Arguments make_chain {value error}.
Arguments set_inputs {value error}.
Arguments add_input {value error}.
Arguments thread_step {value error}.
Arguments Add {value error}.
Arguments EnvWrite {value error}.
Arguments EnvClose {value error}.
Arguments Step {value error}.
Arguments Drop {value error}.
Arguments Destroy {value error}.
Arguments subscribed_anywhere {value error}.
Arguments step {value error}.
Arguments run {value error}.
