(** Mapping a functor over a stream, in order
    (koladata/functor/parallel/stream_map.cc:60-282, 339-349).

    The input is a log that others extend and close at any time (C31). The
    executor runs the tasks it was given in any order on any threads, or drops
    them. A step is one call of a reader, writer or functor, or one test of an
    atomic; the mutex of the sink is held from one step to the next while
    PushItem writes. TryClose sets the flag of the writer in one step and closes
    the stream in another one (stream.cc:282-289); the thread that closes is kept
    apart, so that in the model it does not hold the mutex meanwhile (the code
    does in PushItem and PushStatus; the model has more behaviours). *)
From Coq Require Import List Bool PeanoNat.
From Verif Require Import ChainModel.
Import ListNotations.
Local Open Scope nat_scope.

Section Model.
  Variables value result error : Type.
  Notation status := (status error).

  (** What the functor gives for the item at an offset, 137-148: a value, or an
      error, also if the value has the wrong type. It is called at most once per
      offset and may depend on anything. *)
  Inductive outcome := Value (v : result) | Error (e : error).
  Variable functor : nat -> value -> outcome.
  (** stream.cc:296, the status given by the destructor of a writer *)
  Variable orphaned : error.

  (** * The writer of the output (stream.cc:228-298) *)
  Record writer := Writer {
    out : list result;
    flag : bool;
    closer : option status;
    out_closed : option status;
    expired : bool }.
  Definition new_writer : writer := Writer [] false None None false.
  Definition try_write (w : writer) (v : result) : option writer :=
    if expired w then None
    else match out_closed w with
         | Some _ => None
         | None => Some (Writer (out w ++ [v]) (flag w) (closer w) (out_closed w) (expired w))
         end.
  Definition try_close (w : writer) (st : status) : writer :=
    if flag w then w else Writer (out w) true (Some st) (out_closed w) (expired w).
  Definition finish_close (w : writer) (st : status) : writer :=
    Writer (out w) (flag w) None (if expired w then out_closed w else Some st) (expired w).

  (** * OrderedSink, 217-282 *)
  Record sink := Sink {
    final_offset : option nat;     (* None is the maximal size_t *)
    final_status : status;
    write_count : nat;
    buffer : list (option result);
    mutex : option nat }.          (* the offset whose PushItem holds the mutex *)
  (** 275-281 *)
  Definition new_sink : sink := Sink None OK 0 [] None.

  (** 222-224 *)
  Definition accepts (k : sink) (offset : nat) : bool :=
    match final_offset k with None => true | Some f => offset <? f end.

  (** 232-236: resizes the buffer if needed *)
  Fixpoint set_buffer (b : list (option result)) (i : nat) (v : result) : list (option result) :=
    match i, b with
    | 0, _ => Some v :: tl b
    | S i, [] => None :: set_buffer [] i v
    | S i, x :: b => x :: set_buffer b i v
    end.

  (** 227-236 PushItem up to the loop *)
  Definition push_item (k : sink) (offset : nat) (v : result) : sink * bool :=
    if accepts k offset
    then (Sink (final_offset k) (final_status k) (write_count k)
            (set_buffer (buffer k) (offset - write_count k) v) (Some offset), true)
    else (k, false).

  (** 237-251: one round of the loop, or what follows it. The result tells
      whether PushItem goes on, or what it returns. *)
  Inductive round := Again | Returns (b : bool).
  Definition push_round (k : sink) (w : writer) : sink * writer * round :=
    match buffer k with
    | Some v :: rest =>
        match try_write w v with
        | None => (Sink (Some 0) (final_status k) (write_count k) (buffer k) None, w, Returns false)
        | Some w =>
            (Sink (final_offset k) (final_status k) (S (write_count k)) rest (mutex k), w, Again)
        end
    | _ =>
        match final_offset k with
        | Some f =>
            if write_count k =? f
            then (Sink (Some 0) OK (write_count k) (buffer k) None,
                  try_close w (final_status k), Returns false)
            else (Sink (Some f) (final_status k) (write_count k) (buffer k) None, w, Returns true)
        | None => (Sink None (final_status k) (write_count k) (buffer k) None, w, Returns true)
        end
    end.

  (** 254-267 PushStatus *)
  Definition push_status (k : sink) (w : writer) (offset : nat) (st : status) : sink * writer :=
    if accepts k offset
    then if offset =? write_count k
         then (Sink (Some offset) (final_status k) (write_count k) (buffer k) (mutex k),
               try_close w st)
         else (Sink (Some offset) st (write_count k) (buffer k) (mutex k), w)
    else (k, w).

  (** * The routines, 97-215 *)

  (** ProcessItem, 128-151 *)
  Inductive task :=
  | Queued (x : value)         (* given to the executor, 161-164 *)
  | Called (r : outcome)       (* 137; about to push the result *)
  | Pushing                    (* in the loop of PushItem, 237 *)
  | Stopping                   (* about to set stop_reader, 140, 147, 149 *)
  | Finished.

  (** ReadItems, 154-189 *)
  Inductive place :=
  | AtTest                     (* 155, 166 *)
  | AtRead                     (* 159, 169 *)
  | AtPush (st : status)       (* 178 *)
  | AtSubscribe                (* 182 *)
  | Waiting                    (* the callback is subscribed *)
  | InCallback                 (* 183 *)
  | InQueue                    (* 186-187, given to the executor *)
  | Ended.

  Record state := State {
    log : list value;
    closed : option status;
    read_count : nat;
    reader : place;
    stop_reader : bool;
    tasks : list task;           (* by offset *)
    the_sink : sink;
    the_writer : writer;
    cancelling : option status;  (* the thread that cancels, between 205 and 208 *)
    dropped : bool;              (* the executor has dropped a task *)
    destroyed : bool }.          (* the State was destroyed *)

  (** 191-198, 214: [l], [st] is the content of the input at the start. *)
  Definition start_map (l : list value) (st : option status) : state :=
    State l st 0 AtTest false [] new_sink new_writer None false false.

  Definition at_reader (s : state) (p : place) : state :=
    State (log s) (closed s) (read_count s) p (stop_reader s) (tasks s) (the_sink s)
      (the_writer s) (cancelling s) (dropped s) (destroyed s).
  Definition at_task (s : state) (k : nat) (t : task) : state :=
    State (log s) (closed s) (read_count s) (reader s) (stop_reader s) (update (tasks s) k t)
      (the_sink s) (the_writer s) (cancelling s) (dropped s) (destroyed s).
  Definition with_sink (s : state) (k : sink) (w : writer) : state :=
    State (log s) (closed s) (read_count s) (reader s) (stop_reader s) (tasks s) k w
      (cancelling s) (dropped s) (destroyed s).
  Definition stopped (s : state) : state :=
    State (log s) (closed s) (read_count s) (reader s) true (tasks s) (the_sink s)
      (the_writer s) (cancelling s) (dropped s) (destroyed s).

  Definition try_read (s : state) : read_result value error :=
    match nth_error (log s) (read_count s) with
    | Some v => Item v
    | None => match closed s with Some st => Closed st | None => Empty end
    end.

  (** 155-188 *)
  Definition reader_step (s : state) : state * output :=
    match reader s with
    | AtTest => (at_reader s (if stop_reader s then Ended else AtRead), Done)
    | AtRead =>
        match try_read s with
        | Item x =>
            (State (log s) (closed s) (S (read_count s)) AtTest (stop_reader s)
               (tasks s ++ [Queued x]) (the_sink s) (the_writer s) (cancelling s) (dropped s)
               (destroyed s), Done)
        | Closed st => (at_reader s (AtPush st), Done)
        | Empty => (at_reader s AtSubscribe, Done)
        end
    | AtPush st =>
        match mutex (the_sink s) with
        | Some _ => (s, Impossible)
        | None =>
            let kw := push_status (the_sink s) (the_writer s) (read_count s) st in
            (at_reader (with_sink s (fst kw) (snd kw)) Ended, Done)
        end
    | AtSubscribe =>
        match try_read s with
        | Empty => (at_reader s Waiting, Done)
        | _ => (at_reader s InCallback, Done)
        end
    | InCallback => (at_reader s (if stop_reader s then Ended else InQueue), Done)
    | InQueue => (at_reader s AtTest, Done)
    | Waiting | Ended => (s, Impossible)
    end.

  (** 128-151 *)
  Definition task_step (s : state) (k : nat) (t : task) : state * output :=
    match t with
    | Queued x =>
        (at_task s k (if accepts (the_sink s) k then Called (functor k x) else Finished), Done)
    | Called (Value v) =>
        match mutex (the_sink s) with
        | Some _ => (s, Impossible)
        | None =>
            let kb := push_item (the_sink s) k v in
            (at_task (with_sink s (fst kb) (the_writer s)) k
               (if snd kb then Pushing else Stopping), Done)
        end
    | Called (Error e) =>
        match mutex (the_sink s) with
        | Some _ => (s, Impossible)
        | None =>
            let kw := push_status (the_sink s) (the_writer s) k (Err e) in
            (at_task (with_sink s (fst kw) (snd kw)) k Stopping, Done)
        end
    | Pushing =>
        let '(k', w', r) := push_round (the_sink s) (the_writer s) in
        (at_task (with_sink s k' w') k
           (match r with Again => Pushing | Returns true => Finished | Returns false => Stopping end),
         Done)
    | Stopping => (at_task (stopped s) k Finished, Done)
    | Finished => (s, Impossible)
    end.

  Definition is_finished (t : task) : bool := match t with Finished => true | _ => false end.
  Definition woken (p : place) : place := match p with Waiting => InCallback | _ => p end.

  Inductive op :=
  | EnvWrite (x : value)       (* somebody writes to the input *)
  | EnvClose (st : status)     (* somebody closes the input *)
  | StepReader
  | StepTask (k : nat)
  | DropTask (k : nat)         (* the executor drops a task *)
  | DropReader
  | FinishClose                (* the thread that set the flag closes the stream *)
  | Cancel (e : error)         (* 203-205; the status is not ok *)
  | FinishCancel               (* 206-208, 269-271 *)
  | Expire                     (* the output stream is dropped *)
  | Destroy.                   (* the State is destroyed *)

  Definition step (s : state) (o : op) : state * output :=
    match o with
    | EnvWrite x =>
        match closed s with
        | Some _ => (s, Impossible)
        | None =>
            (State (log s ++ [x]) (closed s) (read_count s) (woken (reader s)) (stop_reader s)
               (tasks s) (the_sink s) (the_writer s) (cancelling s) (dropped s) (destroyed s), Done)
        end
    | EnvClose st =>
        match closed s with
        | Some _ => (s, Impossible)
        | None =>
            (State (log s) (Some st) (read_count s) (woken (reader s)) (stop_reader s)
               (tasks s) (the_sink s) (the_writer s) (cancelling s) (dropped s) (destroyed s), Done)
        end
    | StepReader => reader_step s
    | StepTask k =>
        match nth_error (tasks s) k with
        | Some t => task_step s k t
        | None => (s, Impossible)
        end
    | DropTask k =>
        match nth_error (tasks s) k with
        | Some (Queued _) =>
            (State (log s) (closed s) (read_count s) (reader s) (stop_reader s)
               (update (tasks s) k Finished) (the_sink s) (the_writer s) (cancelling s) true
               (destroyed s), Done)
        | _ => (s, Impossible)
        end
    | DropReader =>
        match reader s with
        | InQueue =>
            (State (log s) (closed s) (read_count s) Ended (stop_reader s) (tasks s) (the_sink s)
               (the_writer s) (cancelling s) true (destroyed s), Done)
        | _ => (s, Impossible)
        end
    | FinishClose =>
        match closer (the_writer s) with
        | Some st => (with_sink s (the_sink s) (finish_close (the_writer s) st), Done)
        | None => (s, Impossible)
        end
    | Cancel e =>
        match cancelling s with
        | None =>
            if destroyed s then (s, Impossible)
            else (State (log s) (closed s) (read_count s) (reader s) true (tasks s) (the_sink s)
                    (the_writer s) (Some (Err e)) (dropped s) (destroyed s), Done)
        | Some _ => (s, Impossible)
        end
    | FinishCancel =>
        match cancelling s with
        | Some st =>
            (State (log s) (closed s) (read_count s) (reader s) (stop_reader s) (tasks s)
               (the_sink s) (try_close (the_writer s) st) None (dropped s) (destroyed s), Done)
        | None => (s, Impossible)
        end
    | Expire =>
        (with_sink s (the_sink s)
           (Writer (out (the_writer s)) (flag (the_writer s)) (closer (the_writer s))
              (out_closed (the_writer s)) true), Done)
    | Destroy =>
        match reader s, cancelling s, closer (the_writer s) with
        | Ended, None, None =>
            if destroyed s || negb (forallb is_finished (tasks s)) then (s, Impossible)
            else
              (* stream.cc:291-298, the destructor of the writer *)
              let w := the_writer s in
              let w := if flag w then w
                       else finish_close (try_close w (Err orphaned)) (Err orphaned) in
              (State (log s) (closed s) (read_count s) (reader s) (stop_reader s) (tasks s)
                 (the_sink s) w (cancelling s) (dropped s) true, Done)
        | _, _, _ => (s, Impossible)
        end
    end.

  Fixpoint run (s : state) (ops : list op) : state :=
    match ops with
    | [] => s
    | o :: ops => run (fst (step s o)) ops
    end.
End Model.

Arguments Value {result error}.
Arguments Error {result error}.
Arguments Writer {result error}.
Arguments out {result error}.
Arguments flag {result error}.
Arguments closer {result error}.
Arguments out_closed {result error}.
Arguments expired {result error}.
Arguments new_writer {result error}.
Arguments try_write {result error}.
Arguments try_close {result error}.
Arguments finish_close {result error}.
Arguments Sink {result error}.
Arguments final_offset {result error}.
Arguments final_status {result error}.
Arguments write_count {result error}.
Arguments buffer {result error}.
Arguments mutex {result error}.
Arguments new_sink {result error}.
Arguments accepts {result error}.
Arguments set_buffer {result}.
Arguments push_item {result error}.
Arguments push_round {result error}.
Arguments push_status {result error}.
Arguments Queued {value result error}.
Arguments Called {value result error}.
Arguments Pushing {value result error}.
Arguments Stopping {value result error}.
Arguments Finished {value result error}.
Arguments AtTest {error}.
Arguments AtRead {error}.
Arguments AtPush {error}.
Arguments AtSubscribe {error}.
Arguments Waiting {error}.
Arguments InCallback {error}.
Arguments InQueue {error}.
Arguments Ended {error}.
Arguments State {value result error}.
Arguments log {value result error}.
Arguments closed {value result error}.
Arguments read_count {value result error}.
Arguments reader {value result error}.
Arguments stop_reader {value result error}.
Arguments tasks {value result error}.
Arguments the_sink {value result error}.
Arguments the_writer {value result error}.
Arguments cancelling {value result error}.
Arguments dropped {value result error}.
Arguments destroyed {value result error}.
Arguments start_map {value result error}.
Arguments at_reader {value result error}.
Arguments at_task {value result error}.
Arguments with_sink {value result error}.
Arguments stopped {value result error}.
Arguments try_read {value result error}.
Arguments reader_step {value result error}.
Arguments task_step {value result error}.
Arguments is_finished {value result error}.
Arguments woken {error}.
Arguments EnvWrite {value error}.
Arguments EnvClose {value error}.
Arguments StepReader {value error}.
Arguments StepTask {value error}.
Arguments DropTask {value error}.
Arguments DropReader {value error}.
Arguments FinishClose {value error}.
Arguments Cancel {value error}.
Arguments FinishCancel {value error}.
Arguments Expire {value error}.
Arguments Destroy {value error}.
Arguments step {value result error}.
Arguments run {value result error}.
