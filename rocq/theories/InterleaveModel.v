(** Interleaving streams
    (koladata/functor/parallel/stream_composition.cc:31-96).

    Every input has one reader, a unique pointer that ProcessInput owns and
    hands to its callback (49-71), so a reader is in the hands of one thread or
    of one callback, or it is gone; the model keeps this with the input.  A step
    is one call of a reader or writer.  The output stream is written through
    the methods of stream.cc:255-289: TryWrite is one locked section; TryClose
    first sets the flag of the writer, and only the thread that has set it
    closes the stream, in a second step. *)
From Coq Require Import List Bool PeanoNat.
From Verif Require Import ChainModel.
Import ListNotations.
Local Open Scope nat_scope.

Section Model.
  Variables value error : Type.
  Notation status := (status error).

  (** Where the reader of an input is. *)
  Inductive place :=
  | AtRead                  (* 51, 56: about to call TryRead *)
  | AtWrite (v : value)     (* 53: about to call TryWrite *)
  | AtClose (e : error)     (* 60: about to call TryClose *)
  | AtSubscribe             (* 67: about to call SubscribeOnce *)
  | Waiting                 (* the callback is subscribed *)
  | Gone.                   (* ProcessInput has returned, 54, 62 *)

  Record source := Source {
    src_log : list value;
    src_closed : option status;
    src_position : nat;
    src_place : place }.

  Record inter := Inter {
    sources : list source;
    out : list (option nat * value);
        (* the output stream; which input an item comes from, or None for
           AddItem, is for the specification only *)
    flag : bool;                   (* closed_ of the writer, stream.cc:123 *)
    closer : option status;        (* a thread that has set the flag, but not closed the stream *)
    out_closed : option status;    (* status_ of the output stream *)
    expired : bool;                (* the output stream is gone *)
    in_use : bool;                 (* the StreamInterleave exists *)
    ended : bool }.                (* the Scheduler was destroyed *)

  (** 77-78 *)
  Definition make_inter : inter := Inter [] [] false None None false true false.

  Definition read_source (x : source) : read_result value error :=
    match nth_error (src_log x) (src_position x) with
    | Some v => Item v
    | None => match src_closed x with Some st => Closed st | None => Empty end
    end.

  Definition put (x : source) (p : place) : source :=
    Source (src_log x) (src_closed x) (src_position x) p.
  Definition next (x : source) (p : place) : source :=
    Source (src_log x) (src_closed x) (S (src_position x)) p.
  (* the callback of a waiting reader is called, 68-70 *)
  Definition woken (p : place) : place := match p with Waiting => AtRead | _ => p end.
  Definition grow (x : source) (v : value) : source :=
    Source (src_log x ++ [v]) (src_closed x) (src_position x) (woken (src_place x)).
  Definition shut (x : source) (st : status) : source :=
    Source (src_log x) (Some st) (src_position x) (woken (src_place x)).

  Definition set_source (s : inter) (i : nat) (x : source) : inter :=
    Inter (update (sources s) i x) (out s) (flag s) (closer s) (out_closed s) (expired s)
      (in_use s) (ended s).

  (** stream.cc:255-271 TryWrite *)
  Definition try_write (s : inter) (from : option nat) (v : value) : inter * bool :=
    if expired s then (s, false)
    else match out_closed s with
         | Some _ => (s, false)
         | None => (Inter (sources s) (out s ++ [(from, v)]) (flag s) (closer s) (out_closed s)
                      (expired s) (in_use s) (ended s), true)
         end.

  (** stream.cc:282-289 TryClose, up to the flag *)
  Definition try_close (s : inter) (st : status) : inter :=
    if flag s then s
    else Inter (sources s) (out s) true (Some st) (out_closed s) (expired s) (in_use s) (ended s).

  (** ... and InternalClose *)
  Definition close_out (s : inter) (st : status) : inter :=
    Inter (sources s) (out s) (flag s) None
      (if expired s then out_closed s else Some st) (expired s) (in_use s) (ended s).

  (** 49-71 ProcessInput *)
  Definition source_step (s : inter) (i : nat) (x : source) : inter * output :=
    match src_place x with
    | AtRead =>
        match read_source x with
        | Item v => (set_source s i (next x (AtWrite v)), Done)
        | Closed OK => (set_source s i (put x Gone), Done)
        | Closed (Err e) => (set_source s i (put x (AtClose e)), Done)
        | Empty => (set_source s i (put x AtSubscribe), Done)
        end
    | AtWrite v =>
        let (s', written) := try_write s (Some i) v in
        (set_source s' i (put x (if written then AtRead else Gone)), Done)
    | AtClose e => (set_source (try_close s (Err e)) i (put x Gone), Done)
    | AtSubscribe =>
        match read_source x with
        | Empty => (set_source s i (put x Waiting), Done)
        | _ => (set_source s i (put x AtRead), Done)
        end
    | Waiting | Gone => (s, Impossible)
    end.

  Inductive iop :=
  | IAdd (l : list value) (st : option status)  (* Add, 82-88 *)
  | IAddItem (v : value)                (* AddItem, 40, 90 *)
  | IAddError (e : error)               (* AddError, 42-47, 94: TryClose up to the flag *)
  | IEnvWrite (i : nat) (v : value)     (* somebody writes to input i *)
  | IEnvClose (i : nat) (st : status)   (* somebody closes input i *)
  | IStep (i : nat)                     (* the thread with reader i goes on *)
  | IClose                              (* the thread that set the flag closes the stream *)
  | IExpire                             (* the output stream is dropped *)
  | IDrop                               (* the StreamInterleave is destroyed *)
  | IEnd.                               (* the Scheduler is destroyed, 36 *)

  Definition is_gone (x : source) : bool := match src_place x with Gone => true | _ => false end.

  Definition istep (s : inter) (o : iop) : inter * output :=
    match o with
    | IAdd l st =>
        if in_use s then
          (Inter (sources s ++ [Source l st 0 AtRead]) (out s) (flag s) (closer s) (out_closed s)
             (expired s) (in_use s) (ended s), Done)
        else (s, Impossible)
    | IAddItem v =>
        if in_use s then (fst (try_write s None v), Done) else (s, Impossible)
    | IAddError e =>
        if in_use s then (try_close s (Err e), Done) else (s, Impossible)
    | IEnvWrite i v =>
        match nth_error (sources s) i with
        | Some x => match src_closed x with
                    | Some _ => (s, Impossible)
                    | None => (set_source s i (grow x v), Done)
                    end
        | None => (s, Impossible)
        end
    | IEnvClose i st =>
        match nth_error (sources s) i with
        | Some x => match src_closed x with
                    | Some _ => (s, Impossible)
                    | None => (set_source s i (shut x st), Done)
                    end
        | None => (s, Impossible)
        end
    | IStep i =>
        match nth_error (sources s) i with
        | Some x => source_step s i x
        | None => (s, Impossible)
        end
    | IClose =>
        match closer s with
        | Some st => (close_out s st, Done)
        | None => (s, Impossible)
        end
    | IExpire =>
        (Inter (sources s) (out s) (flag s) (closer s) (out_closed s) true (in_use s) (ended s), Done)
    | IDrop =>
        if in_use s then
          (Inter (sources s) (out s) (flag s) (closer s) (out_closed s) (expired s) false (ended s),
           Done)
        else (s, Impossible)
    | IEnd =>
        (* no reader, no thread and no StreamInterleave refers to the Scheduler *)
        if in_use s || ended s || negb (forallb is_gone (sources s)) then (s, Impossible)
        else match closer s with
             | Some _ => (s, Impossible)
             | None =>
                 let s' := if flag s then s else close_out (try_close s OK) OK in
                 (Inter (sources s') (out s') (flag s') (closer s') (out_closed s') (expired s')
                    (in_use s') true, Done)
             end
    end.

  Fixpoint irun (s : inter) (ops : list iop) : inter :=
    match ops with
    | [] => s
    | o :: ops => irun (fst (istep s o)) ops
    end.
End Model.

Arguments AtRead {value error}.
Arguments AtWrite {value error}.
Arguments AtClose {value error}.
Arguments AtSubscribe {value error}.
Arguments Waiting {value error}.
Arguments Gone {value error}.
Arguments Source {value error}.
Arguments src_log {value error}.
Arguments src_closed {value error}.
Arguments src_position {value error}.
Arguments src_place {value error}.
Arguments Inter {value error}.
Arguments sources {value error}.
Arguments out {value error}.
Arguments flag {value error}.
Arguments closer {value error}.
Arguments out_closed {value error}.
Arguments expired {value error}.
Arguments in_use {value error}.
Arguments ended {value error}.
Arguments make_inter {value error}.
Arguments read_source {value error}.
Arguments put {value error}.
Arguments next {value error}.
Arguments woken {value error}.
Arguments grow {value error}.
Arguments shut {value error}.
Arguments set_source {value error}.
Arguments try_write {value error}.
Arguments try_close {value error}.
Arguments close_out {value error}.
Arguments source_step {value error}.
Arguments IAdd {value error}.
Arguments IAddItem {value error}.
Arguments IAddError {value error}.
Arguments IEnvWrite {value error}.
Arguments IEnvClose {value error}.
Arguments IStep {value error}.
Arguments IClose {value error}.
Arguments IExpire {value error}.
Arguments IDrop {value error}.
Arguments IEnd {value error}.
Arguments is_gone {value error}.
Arguments istep {value error}.
Arguments irun {value error}.
