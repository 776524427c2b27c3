(** What a stream is, without chunks: a log of values, to which readers have
    positions. *)
From Coq Require Import List Bool PeanoNat.
From Verif Require Import StreamModel.
Import ListNotations.
Local Open Scope nat_scope.

Section Spec.
  Variables value status : Type.
  Variable orphaned : status.

  (** * The abstract stream *)

  Record astream := AStream {
    log : list value;
    a_status : option status;
    waiting : list callback;
    a_closed : bool;
    a_closing : list status;
    a_handle : bool;
    a_next : nat;
    positions : list (nat * nat) }.

  Definition empty_log : astream := AStream [] None [] false [] true 0 [].

  Definition a_expired (a : astream) : bool :=
    negb (a_handle a) && match positions a with [] => true | _ => false end.

  Fixpoint find_position (l : list (nat * nat)) (i : nat) : option nat :=
    match l with
    | [] => None
    | (j, p) :: l => if j =? i then Some p else find_position l i
    end.
  Fixpoint set_position (l : list (nat * nat)) (i p : nat) : list (nat * nat) :=
    match l with
    | [] => []
    | (j, q) :: l => if j =? i then (j, p) :: l else (j, q) :: set_position l i p
    end.

  Definition append (a : astream) (v : value) : astream :=
    AStream (log a ++ [v]) (a_status a) [] (a_closed a) (a_closing a)
      (a_handle a) (a_next a) (positions a).

  Definition begin_close (a : astream) (st : status) : astream :=
    AStream (log a) (a_status a) (waiting a) true (a_closing a ++ [st])
      (a_handle a) (a_next a) (positions a).

  (** What a reader at position p reads. *)
  Definition read_at (a : astream) (p : nat) : read_result value status :=
    match nth_error (log a) p with
    | Some v => Item v
    | None => match a_status a with Some st => Closed st | None => Empty end
    end.

  Definition astep (a : astream) (o : op value status)
    : astream * (output value status * list callback) :=
    match o with
    | Write v =>
        if a_expired a then (a, (Done, []))
        else match a_status a with
             | Some _ => (a, (Fatal, []))
             | None => (append a v, (Done, waiting a))
             end
    | TryWrite v =>
        if a_expired a then (a, (Bool false, []))
        else match a_status a with
             | Some _ => (a, (Bool false, []))
             | None => (append a v, (Bool true, waiting a))
             end
    | Close st => if a_closed a then (a, (Fatal, [])) else (begin_close a st, (Done, []))
    | TryClose st => if a_closed a then (a, (Done, [])) else (begin_close a st, (Done, []))
    | DestroyWriter =>
        if a_closed a then (a, (Done, [])) else (begin_close a orphaned, (Done, []))
    | FinishClose i =>
        match nth_error (a_closing a) i with
        | None => (a, (Impossible, []))
        | Some st =>
            let rest := remove_nth i (a_closing a) in
            if a_expired a then
              (AStream (log a) (a_status a) (waiting a) (a_closed a) rest
                 (a_handle a) (a_next a) (positions a), (Done, []))
            else match a_status a with
                 | Some _ =>
                     (AStream (log a) (a_status a) (waiting a) (a_closed a) rest
                        (a_handle a) (a_next a) (positions a), (Done, []))
                 | None =>
                     (AStream (log a) (Some st) [] (a_closed a) rest
                        (a_handle a) (a_next a) (positions a), (Done, waiting a))
                 end
        end
    | Orphaned => (a, (Bool (a_closed a || a_expired a), []))
    | MakeReader =>
        if a_handle a then
          (AStream (log a) (a_status a) (waiting a) (a_closed a) (a_closing a)
             (a_handle a) (S (a_next a)) (positions a ++ [(a_next a, 0)]),
           (Made (a_next a), []))
        else (a, (Impossible, []))
    | TryRead i =>
        match find_position (positions a) i with
        | None => (a, (Impossible, []))
        | Some p =>
            (AStream (log a) (a_status a) (waiting a) (a_closed a) (a_closing a)
               (a_handle a) (a_next a)
               (set_position (positions a) i
                  (if p <? length (log a) then S p else p)),
             (Read (read_at a p), []))
        end
    | SubscribeOnce i n =>
        match find_position (positions a) i with
        | None => (a, (Impossible, []))
        | Some p =>
            match read_at a p with
            | Empty =>
                (AStream (log a) (a_status a) (waiting a ++ [(i, n)]) (a_closed a)
                   (a_closing a) (a_handle a) (a_next a) (positions a),
                 (Done, []))
            | _ => (a, (Done, [(i, n)]))
            end
        end
    | DropHandle =>
        if a_handle a then
          (AStream (log a) (a_status a) (waiting a) (a_closed a) (a_closing a)
             false (a_next a) (positions a), (Done, []))
        else (a, (Impossible, []))
    | DropReader i =>
        match find_position (positions a) i with
        | None => (a, (Impossible, []))
        | Some _ =>
            (AStream (log a) (a_status a) (waiting a) (a_closed a) (a_closing a)
               (a_handle a) (a_next a)
               (filter (fun jp => negb (fst jp =? i)) (positions a)), (Done, []))
        end
    end.

  Fixpoint arun (a : astream) (ops : list (op value status))
    : astream * list (output value status * list callback) :=
    match ops with
    | [] => (a, [])
    | o :: ops =>
        let ao := astep a o in
        let ar := arun (fst ao) ops in
        (fst ar, snd ao :: snd ar)
    end.

  (** * What an observer sees: the operations and their results *)

  Definition observation :=
    (op value status * (output value status * list callback))%type.

  (** The values that were written, in order. *)
  Fixpoint written (t : list observation) : list value :=
    match t with
    | [] => []
    | (Write v, (Done, _)) :: t => v :: written t
    | (TryWrite v, (Bool true, _)) :: t => v :: written t
    | _ :: t => written t
    end.

  (** The values that reader [i] got, in order. *)
  Fixpoint items_read (i : nat) (t : list observation) : list value :=
    match t with
    | [] => []
    | (TryRead j, (Read (Item v), _)) :: t =>
        if j =? i then v :: items_read i t else items_read i t
    | _ :: t => items_read i t
    end.

  (** The status of the first attempt to close the stream. *)
  Fixpoint first_close (t : list observation) : option status :=
    match t with
    | [] => None
    | (Close st, _) :: _ => Some st
    | (TryClose st, _) :: _ => Some st
    | (DestroyWriter, _) :: _ => Some orphaned
    | _ :: t => first_close t
    end.

  (** Whether the closing has finished. *)
  Fixpoint is_closed (t : list observation) : bool :=
    match t with
    | [] => false
    | (FinishClose _, (Done, _)) :: _ => true
    | _ :: t => is_closed t
    end.

  (** How often a callback was subscribed and how often it was run. *)
  Definition callback_eqb (c d : callback) : bool :=
    (fst c =? fst d) && (snd c =? snd d).
  Fixpoint subscribed (c : callback) (t : list observation) : nat :=
    match t with
    | [] => 0
    | (SubscribeOnce i n, (Done, _)) :: t =>
        (if callback_eqb c (i, n) then 1 else 0) + subscribed c t
    | _ :: t => subscribed c t
    end.
  Fixpoint runs (c : callback) (t : list observation) : nat :=
    match t with
    | [] => 0
    | (_, (_, cbs)) :: t => length (filter (callback_eqb c) cbs) + runs c t
    end.

  (** Whether a reader exists, and whether somebody can still read. *)
  Definition has_reader (i : nat) (t : list observation) : Prop :=
    In (MakeReader, (Made i, [])) t /\ ~ In (DropReader i, (Done, [])) t.
  Definition alive (t : list observation) : Prop :=
    ~ In (DropHandle, (Done, [])) t \/ exists i, has_reader i t.

  (** What a read by reader [i] after [t] may return: the next value that was
      written, or nothing yet, or the status with which the stream was closed. *)
  Definition read_says (t : list observation) (i : nat) (r : read_result value status) : Prop :=
    match r with
    | Item v => exists rest, written t = items_read i t ++ v :: rest
    | Empty => items_read i t = written t /\ is_closed t = false
    | Closed st =>
        items_read i t = written t /\ is_closed t = true /\ first_close t = Some st
    | Garbage => False
    end.
End Spec.

Arguments log {value status}.
Arguments a_status {value status}.
Arguments waiting {value status}.
Arguments a_closed {value status}.
Arguments a_closing {value status}.
Arguments a_handle {value status}.
Arguments a_next {value status}.
Arguments positions {value status}.
Arguments read_at {value status}.
Arguments astep {value status}.
Arguments arun {value status}.
Arguments written {value status}.
Arguments items_read {value status}.
Arguments first_close {value status}.
Arguments is_closed {value status}.
Arguments subscribed {value status}.
Arguments runs {value status}.
Arguments has_reader {value status}.
Arguments alive {value status}.
Arguments read_says {value status}.

(** The observations of a run of a new stream. *)
Definition observe {value status} (orphaned : status) (bytesize initial : nat)
    (ops : list (op value status)) : list (observation value status) :=
  combine ops
    (snd (run orphaned (make_stream (default_chunk_capacity bytesize) initial) ops)).
