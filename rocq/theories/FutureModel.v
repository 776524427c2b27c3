(** Futures (koladata/functor/parallel/future.cc, future.h).

    A run is a sequence of steps of any threads.  A step is one locked section,
    or one call of a consumer: consumers are called after the lock was
    released, so other threads may act between any two calls.  The values and
    the error statuses are arbitrary; [matches] tells whether a value has the
    type of the future. *)
From Coq Require Import List Bool PeanoNat.
Import ListNotations.
Local Open Scope nat_scope.

Section Model.
  Variables value status : Type.
  Variable matches : value -> bool.
  (** future.cc:100, absl::CancelledError("orphaned") *)
  Variable orphaned : status.
  (** future.cc:143, absl::OkStatus() *)
  Variable ok : status.

  (** absl::StatusOr<arolla::TypedValue> *)
  Inductive result := Value (v : value) | Error (st : status).

  (** future.h:97-100; consumers are numbered by the caller. *)
  Record future := Future {
    value_ : option result;
    consumers : list nat }.

  (** future.cc:113-144 FutureStreamReader *)
  Record future_reader := FutureReader {
    read_ : bool;
    status_ : status }.

  (** The future, for each FutureWriter object whether its pointer to the
      future is set, the calls that threads have still to make, and the
      readers made by StreamReaderFromFuture. *)
  Record world := World {
    fut : future;
    writers : list bool;
    threads : list (list (nat * result));
    freaders : list future_reader }.

  (** future.cc:104-109 MakeFuture *)
  Definition make_future : world := World (Future None []) [true] [] [].

  Inductive read_result := Empty | Item (v : value) | Closed (st : status).

  Inductive output :=
  | Done
  | Calls                            (* the caller still has consumers to call *)
  | Called (c : nat) (r : result)
  | Peeked (r : option result)
  | Made (i : nat)
  | Read (r : read_result)
  | WrongType                        (* LOG(FATAL), 52-55 *)
  | AlreadySet                       (* LOG(FATAL), 59-61 *)
  | MovedFrom                        (* LOG(FATAL), 91-93 *)
  | Impossible.                      (* there is no such object or thread *)

  Fixpoint update {A} (l : list A) (i : nat) (x : A) : list A :=
    match l, i with
    | [], _ => []
    | _ :: l, 0 => x :: l
    | y :: l, S i => y :: update l i x
    end.

  (** future.cc:37-49 Future::AddConsumer *)
  Definition add_consumer (w : world) (c : nat) : world * output :=
    match value_ (fut w) with
    | None =>
        (World (Future (value_ (fut w)) (consumers (fut w) ++ [c])) (writers w) (threads w)
           (freaders w), Done)
    | Some r => (World (fut w) (writers w) (threads w ++ [[(c, r)]]) (freaders w), Calls)
    end.

  (** future.cc:51-69 Future::SetValue, called with the pointer of writer [i],
      which is then reset (95; 98-102 the destructor).  A FATAL ends the
      program: nothing changes. *)
  Definition set_value (w : world) (i : nat) (r : result) : world * output :=
    if match r with Value v => negb (matches v) | Error _ => false end then (w, WrongType)
    else match value_ (fut w) with
         | Some _ => (w, AlreadySet)
         | None =>
             (World (Future (Some r) []) (update (writers w) i false)
                (threads w ++ [map (fun c => (c, r)) (consumers (fut w))]) (freaders w), Calls)
         end.

  (** future.cc:71-80 Future::PeekValue *)
  Definition peek_value (w : world) : option result := value_ (fut w).

  (** future.cc:117-133 FutureStreamReader::TryRead *)
  Definition try_read (w : world) (x : future_reader) : future_reader * read_result :=
    if read_ x then (x, Closed (status_ x))
    else match peek_value w with
         | None => (x, Empty)
         | Some (Error st) => (FutureReader true st, Closed st)
         | Some (Value v) => (FutureReader true (status_ x), Item v)
         end.

  Inductive op :=
  | AddConsumer (c : nat)
  | SetValue (i : nat) (r : result)       (* FutureWriter::SetValue *)
  | DestroyWriter (i : nat)               (* ~FutureWriter *)
  | MoveWriter (i : nat)                  (* FutureWriter(FutureWriter&&) *)
  | AssignWriter (i : nat)                (* operator=(FutureWriter&&) on writer i,
                                             from a writer of another future *)
  | Step (k : nat)                        (* thread k calls its next consumer *)
  | PeekValue
  | MakeReader
  | TryRead (i : nat)
  | SubscribeOnce (i : nat) (c : nat).

  Definition step (w : world) (o : op) : world * output :=
    match o with
    | AddConsumer c => add_consumer w c
    | SetValue i r =>
        (* 90-96 *)
        match nth_error (writers w) i with
        | None => (w, Impossible)
        | Some false => (w, MovedFrom)
        | Some true => set_value w i r
        end
    | DestroyWriter i =>
        (* 98-102 *)
        match nth_error (writers w) i with
        | None => (w, Impossible)
        | Some false => (w, Done)
        | Some true => set_value w i (Error orphaned)
        end
    | MoveWriter i =>
        (* future.h:125; the new object has the old one's pointer *)
        match nth_error (writers w) i with
        | None => (w, Impossible)
        | Some b =>
            (World (fut w) (update (writers w) i false ++ [b]) (threads w) (freaders w),
             Made (length (writers w)))
        end
    | AssignWriter i =>
        (* future.h:126, the default: the old pointer is dropped *)
        match nth_error (writers w) i with
        | None => (w, Impossible)
        | Some _ =>
            (World (fut w) (update (writers w) i false) (threads w) (freaders w), Done)
        end
    | Step k =>
        (* 48, 65-68 *)
        match nth_error (threads w) k with
        | Some ((c, r) :: calls) =>
            (World (fut w) (writers w) (update (threads w) k calls) (freaders w), Called c r)
        | _ => (w, Impossible)
        end
    | PeekValue => (w, Peeked (peek_value w))
    | MakeReader =>
        (World (fut w) (writers w) (threads w) (freaders w ++ [FutureReader false ok]),
         Made (length (freaders w)))
    | TryRead i =>
        match nth_error (freaders w) i with
        | None => (w, Impossible)
        | Some x =>
            let xr := try_read w x in
            (World (fut w) (writers w) (threads w) (update (freaders w) i (fst xr)),
             Read (snd xr))
        end
    | SubscribeOnce i c =>
        (* 135-138: a consumer that ignores the value *)
        match nth_error (freaders w) i with
        | None => (w, Impossible)
        | Some _ => add_consumer w c
        end
    end.

  Fixpoint run (w : world) (ops : list op) : world * list output :=
    match ops with
    | [] => (w, [])
    | o :: ops =>
        let wo := step w o in
        let wr := run (fst wo) ops in
        (fst wr, snd wo :: snd wr)
    end.
End Model.

Arguments Value {value status}.
Arguments Error {value status}.
Arguments Future {value status}.
Arguments value_ {value status}.
Arguments consumers {value status}.
Arguments FutureReader {status}.
Arguments read_ {status}.
Arguments status_ {status}.
Arguments World {value status}.
Arguments fut {value status}.
Arguments writers {value status}.
Arguments threads {value status}.
Arguments freaders {value status}.
Arguments make_future {value status}.
Arguments Empty {value status}.
Arguments Item {value status}.
Arguments Closed {value status}.
Arguments Done {value status}.
Arguments Calls {value status}.
Arguments Called {value status}.
Arguments Peeked {value status}.
Arguments Made {value status}.
Arguments Read {value status}.
Arguments WrongType {value status}.
Arguments AlreadySet {value status}.
Arguments MovedFrom {value status}.
Arguments Impossible {value status}.
Arguments update {A}.
Arguments add_consumer {value status}.
Arguments set_value {value status}.
Arguments peek_value {value status}.
Arguments try_read {value status}.
Arguments AddConsumer {value status}.
Arguments SetValue {value status}.
Arguments DestroyWriter {value status}.
Arguments MoveWriter {value status}.
Arguments AssignWriter {value status}.
Arguments Step {value status}.
Arguments PeekValue {value status}.
Arguments MakeReader {value status}.
Arguments TryRead {value status}.
Arguments SubscribeOnce {value status}.
Arguments step {value status}.
Arguments run {value status}.
