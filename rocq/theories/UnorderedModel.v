(** Mapping a functor over a stream, in any order
    (koladata/functor/parallel/stream_map.cc:60-215, 284-335, 351-361).

    As in MapModel: the input is extended by others, the executor runs its tasks in
    any order or drops them, and a step is one call of a reader, writer or functor,
    or one test of an atomic. The items of the output carry the offset they come
    from; the code does not keep it. *)
From Coq Require Import List Bool PeanoNat.
From Verif Require Import ChainModel MapModel.
Import ListNotations.
Local Open Scope nat_scope.

Section Model.
  Variables value result error : Type.
  Notation status := (status error).
  Variable functor : nat -> value -> outcome result error.
  Variable orphaned : error.
  Notation writer := (writer (nat * result) error).

  (** ProcessItem, 128-151, with PushItem, 301-310 *)
  Inductive utask :=
  | UQueued (x : value)                 (* given to the executor *)
  | UCalled (r : outcome result error)  (* 137; about to push the result *)
  | UWriting (v : result)               (* 303 *)
  | UCounting                           (* 304 *)
  | UFailing                            (* 307 *)
  | UStopping                           (* about to set stop_reader *)
  | UFinished.

  Record ustate := UState {
    ulog : list value;
    uclosed : option status;
    uread_count : nat;
    ureader : place error;
    ustop_reader : bool;
    utasks : list utask;
    failed : bool;                      (* 332 *)
    uwrite_count : nat;                 (* 333 *)
    input_stream_size : option nat;     (* 334 *)
    uwriter : writer;
    ucancelling : option error;
    udropped : bool;
    udestroyed : bool }.

  Definition start_unordered (l : list value) (st : option status) : ustate :=
    UState l st 0 AtTest false [] false 0 None new_writer None false false.

  Definition at_ureader (s : ustate) (p : place error) : ustate :=
    UState (ulog s) (uclosed s) (uread_count s) p (ustop_reader s) (utasks s) (failed s)
      (uwrite_count s) (input_stream_size s) (uwriter s) (ucancelling s) (udropped s) (udestroyed s).
  Definition at_utask (s : ustate) (k : nat) (t : utask) : ustate :=
    UState (ulog s) (uclosed s) (uread_count s) (ureader s) (ustop_reader s) (update (utasks s) k t)
      (failed s) (uwrite_count s) (input_stream_size s) (uwriter s) (ucancelling s) (udropped s)
      (udestroyed s).
  Definition with_failed (s : ustate) (b : bool) (w : writer) : ustate :=
    UState (ulog s) (uclosed s) (uread_count s) (ureader s) (ustop_reader s) (utasks s) b
      (uwrite_count s) (input_stream_size s) w (ucancelling s) (udropped s) (udestroyed s).
  Definition with_count (s : ustate) (n : nat) : ustate :=
    UState (ulog s) (uclosed s) (uread_count s) (ureader s) (ustop_reader s) (utasks s) (failed s)
      n (input_stream_size s) (uwriter s) (ucancelling s) (udropped s) (udestroyed s).
  Definition with_size (s : ustate) (n : nat) : ustate :=
    UState (ulog s) (uclosed s) (uread_count s) (ureader s) (ustop_reader s) (utasks s) (failed s)
      (uwrite_count s) (Some n) (uwriter s) (ucancelling s) (udropped s) (udestroyed s).
  Definition ustopped (s : ustate) : ustate :=
    UState (ulog s) (uclosed s) (uread_count s) (ureader s) true (utasks s) (failed s)
      (uwrite_count s) (input_stream_size s) (uwriter s) (ucancelling s) (udropped s) (udestroyed s).

  Definition utry_read (s : ustate) : read_result value error :=
    match nth_error (ulog s) (uread_count s) with
    | Some v => Item v
    | None => match uclosed s with Some st => Closed st | None => Empty end
    end.

  (** 319-321, 326-328: closes the output unless something has failed before
      (stream.cc:272-280). The two flags are set in one step; only threads that
      have set [failed_] look at the flag of the writer. *)
  Definition fail_with (s : ustate) (e : error) : ustate * output :=
    if failed s then (s, Done)
    else if flag (uwriter s) then (s, Fatal)
    else (with_failed s true (try_close (uwriter s) (Err e)), Done).

  (** 312-322 PushStatus *)
  Definition upush_status (s : ustate) (offset : nat) (st : status) : ustate * output :=
    match st with
    | OK => match input_stream_size s with
            | Some _ => (s, CheckFailed)
            | None => (with_size s offset, Done)
            end
    | Err e => fail_with s e
    end.

  (** 155-188 *)
  Definition ureader_step (s : ustate) : ustate * output :=
    match ureader s with
    | AtTest => (at_ureader s (if ustop_reader s then Ended else AtRead), Done)
    | AtRead =>
        match utry_read s with
        | Item x =>
            (UState (ulog s) (uclosed s) (S (uread_count s)) AtTest (ustop_reader s)
               (utasks s ++ [UQueued x]) (failed s) (uwrite_count s) (input_stream_size s)
               (uwriter s) (ucancelling s) (udropped s) (udestroyed s), Done)
        | Closed st => (at_ureader s (AtPush st), Done)
        | Empty => (at_ureader s AtSubscribe, Done)
        end
    | AtPush st =>
        let so := upush_status s (uread_count s) st in (at_ureader (fst so) Ended, snd so)
    | AtSubscribe =>
        match utry_read s with
        | Empty => (at_ureader s Waiting, Done)
        | _ => (at_ureader s InCallback, Done)
        end
    | InCallback => (at_ureader s (if ustop_reader s then Ended else InQueue), Done)
    | InQueue => (at_ureader s AtTest, Done)
    | Waiting | Ended => (s, Impossible)
    end.

  (** 128-151 *)
  Definition utask_step (s : ustate) (k : nat) (t : utask) : ustate * output :=
    match t with
    | UQueued x => (at_utask s k (if failed s then UFinished else UCalled (functor k x)), Done)
    | UCalled (Value v) => (at_utask s k (if failed s then UStopping else UWriting v), Done)
    | UCalled (Error e) =>
        let so := upush_status s k (Err e) in (at_utask (fst so) k UStopping, snd so)
    | UWriting v =>
        match try_write (uwriter s) (k, v) with
        | Some w => (at_utask (with_failed s (failed s) w) k UCounting, Done)
        | None => (at_utask s k UFailing, Done)
        end
    | UCounting => (at_utask (with_count s (S (uwrite_count s))) k UFinished, Done)
    | UFailing => (at_utask (with_failed s true (uwriter s)) k UStopping, Done)
    | UStopping => (at_utask (ustopped s) k UFinished, Done)
    | UFinished => (s, Impossible)
    end.

  Definition u_finished (t : utask) : bool := match t with UFinished => true | _ => false end.

  (** 289-294, then the destructor of the writer (stream.cc:291-298) *)
  Definition destroy_sink (s : ustate) : ustate * output :=
    let close (o : writer * output) (st : status) :=
      match o with
      | (w, Done) => if flag w then (w, Fatal) else (finish_close (try_close w st) st, Done)
      | _ => o
      end in
    let ok := negb (failed s)
              && match input_stream_size s with
                 | Some n => uwrite_count s =? n
                 | None => false
                 end in
    let wo := if ok then close (uwriter s, Done) OK else (uwriter s, Done) in
    let wo := if flag (fst wo) then wo else close wo (Err orphaned) in
    (UState (ulog s) (uclosed s) (uread_count s) (ureader s) (ustop_reader s) (utasks s) true
       (uwrite_count s) (input_stream_size s) (fst wo) (ucancelling s) (udropped s) true, snd wo).

  Definition ustep (s : ustate) (o : op value error) : ustate * output :=
    match o with
    | EnvWrite x =>
        match uclosed s with
        | Some _ => (s, Impossible)
        | None =>
            (UState (ulog s ++ [x]) (uclosed s) (uread_count s) (woken (ureader s)) (ustop_reader s)
               (utasks s) (failed s) (uwrite_count s) (input_stream_size s) (uwriter s)
               (ucancelling s) (udropped s) (udestroyed s), Done)
        end
    | EnvClose st =>
        match uclosed s with
        | Some _ => (s, Impossible)
        | None =>
            (UState (ulog s) (Some st) (uread_count s) (woken (ureader s)) (ustop_reader s)
               (utasks s) (failed s) (uwrite_count s) (input_stream_size s) (uwriter s)
               (ucancelling s) (udropped s) (udestroyed s), Done)
        end
    | StepReader => ureader_step s
    | StepTask k =>
        match nth_error (utasks s) k with
        | Some t => utask_step s k t
        | None => (s, Impossible)
        end
    | DropTask k =>
        match nth_error (utasks s) k with
        | Some (UQueued _) =>
            (UState (ulog s) (uclosed s) (uread_count s) (ureader s) (ustop_reader s)
               (update (utasks s) k UFinished) (failed s) (uwrite_count s) (input_stream_size s)
               (uwriter s) (ucancelling s) true (udestroyed s), Done)
        | _ => (s, Impossible)
        end
    | DropReader =>
        match ureader s with
        | InQueue =>
            (UState (ulog s) (uclosed s) (uread_count s) Ended (ustop_reader s) (utasks s) (failed s)
               (uwrite_count s) (input_stream_size s) (uwriter s) (ucancelling s) true
               (udestroyed s), Done)
        | _ => (s, Impossible)
        end
    | FinishClose =>
        match closer (uwriter s) with
        | Some st => (with_failed s (failed s) (finish_close (uwriter s) st), Done)
        | None => (s, Impossible)
        end
    | Cancel e =>
        match ucancelling s with
        | None =>
            if udestroyed s then (s, Impossible)
            else (UState (ulog s) (uclosed s) (uread_count s) (ureader s) true (utasks s) (failed s)
                    (uwrite_count s) (input_stream_size s) (uwriter s) (Some e) (udropped s)
                    (udestroyed s), Done)
        | Some _ => (s, Impossible)
        end
    | FinishCancel =>
        match ucancelling s with
        | Some e =>
            let so := fail_with s e in
            (UState (ulog s) (uclosed s) (uread_count s) (ureader s) (ustop_reader s) (utasks s)
               (failed (fst so)) (uwrite_count s) (input_stream_size s) (uwriter (fst so)) None
               (udropped s) (udestroyed s), snd so)
        | None => (s, Impossible)
        end
    | Expire =>
        (with_failed s (failed s)
           (Writer (out (uwriter s)) (flag (uwriter s)) (closer (uwriter s))
              (out_closed (uwriter s)) true), Done)
    | Destroy =>
        match ureader s, ucancelling s, closer (uwriter s) with
        | Ended, None, None =>
            if udestroyed s || negb (forallb u_finished (utasks s)) then (s, Impossible)
            else destroy_sink s
        | _, _, _ => (s, Impossible)
        end
    end.

  Fixpoint urun (s : ustate) (ops : list (op value error)) : ustate * list output :=
    match ops with
    | [] => (s, [])
    | o :: ops =>
        let so := ustep s o in
        let r := urun (fst so) ops in (fst r, snd so :: snd r)
    end.
End Model.

Arguments UQueued {value result error}.
Arguments UCalled {value result error}.
Arguments UWriting {value result error}.
Arguments UCounting {value result error}.
Arguments UFailing {value result error}.
Arguments UStopping {value result error}.
Arguments UFinished {value result error}.
Arguments UState {value result error}.
Arguments ulog {value result error}.
Arguments uclosed {value result error}.
Arguments uread_count {value result error}.
Arguments ureader {value result error}.
Arguments ustop_reader {value result error}.
Arguments utasks {value result error}.
Arguments failed {value result error}.
Arguments uwrite_count {value result error}.
Arguments input_stream_size {value result error}.
Arguments uwriter {value result error}.
Arguments ucancelling {value result error}.
Arguments udropped {value result error}.
Arguments udestroyed {value result error}.
Arguments start_unordered {value result error}.
Arguments at_ureader {value result error}.
Arguments at_utask {value result error}.
Arguments with_failed {value result error}.
Arguments with_count {value result error}.
Arguments with_size {value result error}.
Arguments ustopped {value result error}.
Arguments utry_read {value result error}.
Arguments fail_with {value result error}.
Arguments upush_status {value result error}.
Arguments ureader_step {value result error}.
Arguments utask_step {value result error}.
Arguments u_finished {value result error}.
Arguments destroy_sink {value result error}.
Arguments ustep {value result error}.
Arguments urun {value result error}.
