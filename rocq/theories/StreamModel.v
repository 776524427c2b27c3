(** Model of koladata/functor/parallel/stream.{h,cc}: a stream stores what is
    written to it in chunks; any number of readers go through the chunks.

    All the methods run concurrently. Each of them does its work either in one
    section under the mutex of the stream, or (the fast path of TryRead) on data
    of the reader alone, so a run is a sequence of these sections in any order.
    The exception is closing, which first sets the atomic flag of the writer and
    then closes the stream; these are two steps here. The callbacks of readers
    are run after the mutex is released: a step hands them out, in the order in
    which they are run. *)
From Coq Require Import List Bool PeanoNat.
Import ListNotations.
Local Open Scope nat_scope.

Section Streams.
  Variables value status : Type.

  (** absl::CancelledError("orphaned"), stream.cc:296 *)
  Variable orphaned : status.

  (** stream.cc:51-56 GetDefaultChunkCapacity; AllocSize is [bytesize]. *)
  Definition default_chunk_capacity (bytesize : nat) : nat :=
    if bytesize =? 0 then 512 else (512 + bytesize - 1) / bytesize.

  (** stream.cc:58-77, 144-175 Chunk: [capacity] values, initially
      default-constructed ([None]). *)
  Definition chunk := list (option value).
  Definition new_chunk (capacity : nat) : chunk := repeat None capacity.
  Definition capacity (c : chunk) : nat := length c.
  Definition get_ref (c : chunk) (i : nat) : option value :=
    match nth_error c i with Some v => v | None => None end.
  Fixpoint set_ref (c : chunk) (i : nat) (v : value) : chunk :=
    match c, i with
    | [], _ => []
    | _ :: c, O => Some v :: c
    | x :: c, S i => x :: set_ref c i v
    end.

  (** A callback is known by the reader that subscribed it and a number. *)
  Definition callback := (nat * nat)%type.

  (** stream.cc:127-142, 300-304 Reader. [r_chunk] is the position of [chunk_]
      in the deque, or None for the static empty chunk. *)
  Record reader := Reader {
    next_chunk_index : nat;
    r_chunk : option nat;
    offset : nat;
    known_size : nat }.
  Definition new_reader : reader := Reader 0 None 0 0.

  (** stream.cc:80-104 StreamImpl, 106-125 Writer, and the life time of the
      stream: it exists as long as somebody has a pointer to it ([handle]) or a
      reader. Readers are numbered. [w_closed] is the writer's flag, [closing] has the statuses with
      which threads are about to close the stream. *)
  Record stream := Stream {
    default_capacity : nat;
    chunks : list chunk;
    last_chunk_size : nat;
    s_status : option status;
    callbacks : list callback;
    w_closed : bool;
    closing : list status;
    handle : bool;
    next_reader : nat;
    readers : list (nat * reader) }.

  (** stream.cc:177-184 and MakeStream, 352-360 *)
  Definition make_stream (default_capacity initial_capacity : nat) : stream :=
    Stream default_capacity
      (if 0 <? initial_capacity then [new_chunk initial_capacity] else [])
      0 None [] false [] true 0 [].

  Definition expired (s : stream) : bool :=
    negb (handle s) && match readers s with [] => true | _ => false end.

  (** Replaces the last chunk. *)
  Definition set_back (cs : list chunk) (i : nat) (v : value) : list chunk :=
    match rev cs with
    | [] => []
    | c :: r => rev (set_ref c i v :: r)
    end.

  (** stream.cc:190-210 InternalWrite. None stands for kClosed. *)
  Definition internal_write (s : stream) (v : value)
    : option (stream * list callback) :=
    match s_status s with
    | Some _ => None
    | None =>
        let full :=
          match rev (chunks s) with
          | [] => true
          | c :: _ => capacity c =? last_chunk_size s
          end in
        let cs :=
          if full then chunks s ++ [new_chunk (default_capacity s)] else chunks s in
        let size := if full then 0 else last_chunk_size s in
        Some (Stream (default_capacity s) (set_back cs size v) (S size) None []
                (w_closed s) (closing s) (handle s) (next_reader s) (readers s), callbacks s)
    end.

  (** stream.cc:212-226 InternalClose *)
  Definition internal_close (s : stream) (st : status) : stream * list callback :=
    match s_status s with
    | Some _ => (s, [])
    | None =>
        (Stream (default_capacity s) (chunks s) (last_chunk_size s) (Some st) []
           (w_closed s) (closing s) (handle s) (next_reader s) (readers s), callbacks s)
    end.

  Definition chunk_of (s : stream) (r : reader) : chunk :=
    match r_chunk r with
    | None => []
    | Some k => nth k (chunks s) []
    end.

  (** stream.cc:322-333 Update *)
  Definition update (s : stream) (r : reader) : reader :=
    let r :=
      if (offset r =? capacity (chunk_of s r))
         && (next_chunk_index r <? length (chunks s))
      then Reader (S (next_chunk_index r)) (Some (next_chunk_index r)) 0
             (known_size r)
      else r in
    Reader (next_chunk_index r) (r_chunk r) (offset r)
      (if next_chunk_index r =? length (chunks s) then last_chunk_size s
       else capacity (chunk_of s r)).

  (** StreamReader::TryReadResult, stream.h:164-184. [Garbage] is a value that
      nobody wrote. *)
  Inductive read_result :=
  | Empty
  | Item (v : value)
  | Closed (st : status)
  | Garbage.

  Definition read_ref (s : stream) (r : reader) : read_result * reader :=
    (match get_ref (chunk_of s r) (offset r) with
     | Some v => Item v
     | None => Garbage
     end,
     Reader (next_chunk_index r) (r_chunk r) (S (offset r)) (known_size r)).

  (** stream.cc:306-320 TryRead *)
  Definition try_read (s : stream) (r : reader) : read_result * reader :=
    if offset r <? known_size r then read_ref s r
    else
      let r := update s r in
      if offset r <? known_size r then
        let vr := read_ref s r in (fst vr, update s (snd vr))
      else
        (match s_status s with Some st => Closed st | None => Empty end, r).

  Fixpoint find_reader (l : list (nat * reader)) (i : nat) : option reader :=
    match l with
    | [] => None
    | (j, r) :: l => if j =? i then Some r else find_reader l i
    end.
  Fixpoint set_reader (l : list (nat * reader)) (i : nat) (r : reader)
    : list (nat * reader) :=
    match l with
    | [] => []
    | (j, q) :: l => if j =? i then (j, r) :: l else (j, q) :: set_reader l i r
    end.

  Definition with_readers (s : stream) (l : list (nat * reader)) : stream :=
    Stream (default_capacity s) (chunks s) (last_chunk_size s) (s_status s)
      (callbacks s) (w_closed s) (closing s) (handle s) (next_reader s) l.
  Definition with_callbacks (s : stream) (l : list callback) : stream :=
    Stream (default_capacity s) (chunks s) (last_chunk_size s) (s_status s)
      l (w_closed s) (closing s) (handle s) (next_reader s) (readers s).
  Definition with_closing (s : stream) (c : bool) (l : list status) : stream :=
    Stream (default_capacity s) (chunks s) (last_chunk_size s) (s_status s)
      (callbacks s) c l (handle s) (next_reader s) (readers s).
  Definition without_handle (s : stream) : stream :=
    Stream (default_capacity s) (chunks s) (last_chunk_size s) (s_status s)
      (callbacks s) (w_closed s) (closing s) false (next_reader s) (readers s).

  Definition add_reader (s : stream) : stream :=
    Stream (default_capacity s) (chunks s) (last_chunk_size s) (s_status s)
      (callbacks s) (w_closed s) (closing s) (handle s) (S (next_reader s))
      (readers s ++ [(next_reader s, new_reader)]).

  Fixpoint remove_nth {A} (i : nat) (l : list A) : list A :=
    match l, i with
    | [], _ => []
    | _ :: l, O => l
    | x :: l, S i => x :: remove_nth i l
    end.

  (** What threads can do with a stream, its writer and its readers. *)
  Inductive op :=
  | Write (v : value)
  | TryWrite (v : value)
  | Close (st : status)        (* sets the flag of the writer *)
  | TryClose (st : status)
  | DestroyWriter
  | FinishClose (i : nat)      (* the i-th closing thread closes the stream *)
  | Orphaned
  | MakeReader
  | TryRead (i : nat)
  | SubscribeOnce (i n : nat)  (* the callback (i, n) *)
  | DropHandle
  | DropReader (i : nat).

  (** What a step returns, and the callbacks that are run after it. [Fatal] is
      LOG(FATAL); [Impossible] is an operation that no caller can make, such as
      reading with a reader that does not exist. *)
  Inductive output :=
  | Done
  | Bool (b : bool)
  | Made (i : nat)             (* the new reader is called i *)
  | Read (r : read_result)
  | Fatal
  | Impossible.

  Definition step (s : stream) (o : op) : stream * (output * list callback) :=
    match o with
    | Write v =>                                        (* stream.cc:236-253 *)
        if expired s then (s, (Done, []))
        else match internal_write s v with
             | Some (s, cbs) => (s, (Done, cbs))
             | None => (s, (Fatal, []))
             end
    | TryWrite v =>                                     (* stream.cc:255-271 *)
        if expired s then (s, (Bool false, []))
        else match internal_write s v with
             | Some (s, cbs) => (s, (Bool true, cbs))
             | None => (s, (Bool false, []))
             end
    | Close st =>                                       (* stream.cc:273-276 *)
        if w_closed s then (s, (Fatal, []))
        else (with_closing s true (closing s ++ [st]), (Done, []))
    | TryClose st =>                                    (* stream.cc:282-285 *)
        if w_closed s then (s, (Done, []))
        else (with_closing s true (closing s ++ [st]), (Done, []))
    | DestroyWriter =>                                  (* stream.cc:291-294 *)
        if w_closed s then (s, (Done, []))
        else (with_closing s true (closing s ++ [orphaned]), (Done, []))
    | FinishClose i =>                                  (* 277-280, 286-289 *)
        match nth_error (closing s) i with
        | None => (s, (Impossible, []))
        | Some st =>
            let s := with_closing s (w_closed s) (remove_nth i (closing s)) in
            if expired s then (s, (Done, []))
            else let r := internal_close s st in (fst r, (Done, snd r))
        end
    | Orphaned => (s, (Bool (w_closed s || expired s), [])) (* 232-234 *)
    | MakeReader =>                                     (* stream.cc:186-188 *)
        if handle s then (add_reader s, (Made (next_reader s), []))
        else (s, (Impossible, []))
    | TryRead i =>
        match find_reader (readers s) i with
        | None => (s, (Impossible, []))
        | Some r =>
            let vr := try_read s r in
            (with_readers s (set_reader (readers s) i (snd vr)),
             (Read (fst vr), []))
        end
    | SubscribeOnce i n =>                              (* stream.cc:335-348 *)
        match find_reader (readers s) i with
        | None => (s, (Impossible, []))
        | Some r =>
            match s_status s with
            | Some _ => (s, (Done, [(i, n)]))
            | None =>
                let r := update s r in
                let s := with_readers s (set_reader (readers s) i r) in
                if offset r =? known_size r
                then (with_callbacks s (callbacks s ++ [(i, n)]), (Done, []))
                else (s, (Done, [(i, n)]))
            end
        end
    | DropHandle =>
        if handle s then (without_handle s, (Done, []))
        else (s, (Impossible, []))
    | DropReader i =>
        match find_reader (readers s) i with
        | None => (s, (Impossible, []))
        | Some _ =>
            (with_readers s (filter (fun jr => negb (fst jr =? i)) (readers s)),
             (Done, []))
        end
    end.

  Fixpoint run (s : stream) (ops : list op) : stream * list (output * list callback) :=
    match ops with
    | [] => (s, [])
    | o :: ops =>
        let so := step s o in
        let sr := run (fst so) ops in
        (fst sr, snd so :: snd sr)
    end.
End Streams.

Arguments Empty {value status}.
Arguments Item {value status}.
Arguments Closed {value status}.
Arguments Garbage {value status}.
Arguments Write {value status}.
Arguments TryWrite {value status}.
Arguments Close {value status}.
Arguments TryClose {value status}.
Arguments DestroyWriter {value status}.
Arguments FinishClose {value status}.
Arguments Orphaned {value status}.
Arguments MakeReader {value status}.
Arguments TryRead {value status}.
Arguments SubscribeOnce {value status}.
Arguments DropHandle {value status}.
Arguments DropReader {value status}.
Arguments Done {value status}.
Arguments Bool {value status}.
Arguments Made {value status}.
Arguments Read {value status}.
Arguments Fatal {value status}.
Arguments Impossible {value status}.
Arguments default_capacity {value status}.
Arguments chunks {value status}.
Arguments last_chunk_size {value status}.
Arguments s_status {value status}.
Arguments callbacks {value status}.
Arguments w_closed {value status}.
Arguments closing {value status}.
Arguments handle {value status}.
Arguments next_reader {value status}.
Arguments readers {value status}.
Arguments make_stream {value status}.
Arguments expired {value status}.
Arguments internal_write {value status}.
Arguments internal_close {value status}.
Arguments chunk_of {value status}.
Arguments update {value status}.
Arguments read_ref {value status}.
Arguments try_read {value status}.
Arguments step {value status}.
Arguments run {value status}.
Arguments new_chunk {value}.
Arguments capacity {value}.
Arguments get_ref {value}.
Arguments set_ref {value}.
Arguments set_back {value}.
