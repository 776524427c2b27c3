(** While loops: koladata/functor/parallel/stream_while.cc with the variables of stream_loop_internal.cc,
    the routine of basic_routine.cc and the writer of stream.cc.

    The values, variables, conditions and errors are those of ForModel (stream_loop_internal.cc is shared).
    A run is a list of steps of any threads: the thread of the routine (one step for each call of the
    writer or of a functor), those that cancel the computation, drop the output stream, or shut the
    executor down. *)
From Coq Require Import String.
From Coq Require Import List Bool Arith.
From Verif Require Import ForModel.
Import ListNotations.
Local Open Scope string_scope.
Local Open Scope nat_scope.
Local Open Scope list_scope.

Section Model.
Variables (value type E : Type).
Variable type_of : value -> type.
Variable type_eqb : type -> type -> bool.
(** stream_while.cc:123-167 or 212-274 *)
Variable m : mode.
Variable condition_functor : variables value -> condition E.
Variable body_functor : variables value -> returned value E.

(** The next step of the routine *)
Inductive place :=
| Starting                 (* basic_routine.cc:100 *)
| Scheduled                (* in the queue of the executor, to start *)
| Resuming                 (* in the queue of the executor, after the condition came *)
| Asking                   (* stream_while.cc:68, 94 CallLoopCondition *)
| Running                  (* stream_while.cc:93 CallLoopBody *)
| Handing                  (* stream_while.cc:257-267 MaybeYield *)
| Winding                  (* stream_while.cc:100 OnSuccess *)
| Sealing                  (* stream_while.cc:158 *)
| Breaking (e : error E)   (* stream_while.cc:82-85 OnError *)
| Listening                (* basic_routine.cc:67-70 *)
| Sleeping                 (* subscribed to the condition *)
| Dropping                 (* the state of the routine is about to be destroyed *)
| Dropped.

Record loop_state := Loop_state {
  w_at : place;
  w_vars : variables value;         (* the last one is `returns`, or what is yielded *)
  w_changed : bool;                 (* the last variable is not the initial object *)
  w_written : list value;           (* the output stream *)
  w_status : option (status E);
  w_flag : bool;                    (* closed_ of the writer *)
  w_expired : bool;                 (* nobody holds the output stream *)
  w_cancelled : option E;           (* the cancellation context *)
  w_notified : bool;                (* its subscribers are called *)
  w_cancelling : option E;          (* a thread is between 283 and 287 of TryClose for OnCancel *)
  w_shut : bool }.                  (* the executor dropped the routine *)

Definition moved (p : place) (s : loop_state) : loop_state :=
  Loop_state p (w_vars s) (w_changed s) (w_written s) (w_status s) (w_flag s) (w_expired s) (w_cancelled s)
    (w_notified s) (w_cancelling s) (w_shut s).
Definition with_vars (l : variables value) (c : bool) (s : loop_state) : loop_state :=
  Loop_state (w_at s) l c (w_written s) (w_status s) (w_flag s) (w_expired s) (w_cancelled s)
    (w_notified s) (w_cancelling s) (w_shut s).

(** stream.cc:232-234 Orphaned; stream_while.cc:137, 228 Interrupted of the hooks *)
Definition w_orphaned (s : loop_state) : bool := w_flag s || w_expired s.
(** stream.cc:255-271 TryWrite *)
Definition w_try_write (v : value) (s : loop_state) : bool * loop_state :=
  if w_expired s then (false, s)
  else match w_status s with
       | Some _ => (false, s)
       | None => (true, Loop_state (w_at s) (w_vars s) (w_changed s) (w_written s ++ [v]) (w_status s) (w_flag s)
                          (w_expired s) (w_cancelled s) (w_notified s) (w_cancelling s) (w_shut s))
       end.
(** stream.cc:282-289 TryClose and 291-298 ~Writer, in one step: only [W_cancel] comes between *)
Definition w_try_close (st : status E) (s : loop_state) : loop_state :=
  if w_flag s then s
  else Loop_state (w_at s) (w_vars s) (w_changed s) (w_written s) (if w_expired s then w_status s else Some st) true
         (w_expired s) (w_cancelled s) (w_notified s) (w_cancelling s) (w_shut s).
(** basic_routine.cc:50-54 Interrupted *)
Definition w_interrupted (s : loop_state) : bool :=
  match w_cancelled s with Some _ => true | None => w_orphaned s end.

(** stream_while.cc:91-102: how Run goes on with a condition *)
Definition decided (c : condition E) (s : loop_state) : loop_state :=
  match c with
  | Yes => moved Running s
  | No => moved Winding s
  | Bad e => moved (Breaking (Given e)) s
  end.

(** One step of the routine. [now]: the condition is there at once. [initial]: the value yielded first *)
Definition w_routine (initial : value) (now : bool) (s : loop_state) : loop_state :=
  match w_at s with
  | Starting => if w_interrupted s then moved Dropping s else moved Scheduled s
  | Scheduled => moved Asking s
  | Resuming =>
      (* 75: ParseLoopConditionStream *)
      decided (condition_functor (arguments m (w_vars s))) s
  | Asking =>
      if w_orphaned s then moved Winding s
      else if now then decided (condition_functor (arguments m (w_vars s))) s
      else moved Listening s
  | Running =>
      if w_orphaned s then moved Asking s
      else
        let r := body_functor (arguments m (w_vars s)) in
        match update type_of type_eqb (w_vars s) r with
        | inr e => moved (Breaking e) s
        | inl l =>
            let s := with_vars l (w_changed s || sets_last l r) s in
            match m with Yields => moved Handing s | Returns => moved Asking s end
        end
  | Handing =>
      if w_changed s then
        match last_value (w_vars s) with
        | None => s
        | Some v =>
            let (ok, s) := w_try_write v s in
            if ok then moved Asking (with_vars (set_last (w_vars s) initial) false s) else moved Asking s
        end
      else moved Asking s
  | Winding =>
      match m with
      | Yields => moved Dropping (w_try_close OK s)
      | Returns =>
          match last_value (w_vars s) with
          | None => s
          | Some v => let (ok, s) := w_try_write v s in moved (if ok then Sealing else Dropping) s
          end
      end
  | Sealing => moved Dropping (w_try_close OK s)
  | Breaking e => moved Dropping (w_try_close (Err e) s)
  | Listening => if w_interrupted s then moved Dropping s else moved Sleeping s
  | Sleeping => s
  | Dropping => moved Dropped (w_try_close (Err Orphaned) s)
  | Dropped => s
  end.

Inductive event :=
| W_step (now : bool)     (* the thread of the routine *)
| W_notify                (* the callback of SubscribeOnce: the condition came *)
| W_expire                (* the output stream is dropped *)
| W_cancel (e : E)        (* the computation is cancelled ... *)
| W_on_cancel             (* ... and the subscriber called, basic_routine.cc:89-98, up to stream.cc:283 *)
| W_close_cancelled       (* stream.cc:286-288 of it *)
| W_shutdown.             (* the executor drops what is queued *)

Definition w_step (initial : value) (s : loop_state) (o : event) : loop_state :=
  match o with
  | W_step now => w_routine initial now s
  | W_notify =>
      (* basic_routine.cc:70-76 *)
      match w_at s with
      | Sleeping => if w_interrupted s then moved Dropping s else moved Resuming s
      | _ => s
      end
  | W_expire =>
      Loop_state (w_at s) (w_vars s) (w_changed s) (w_written s) (w_status s) (w_flag s) true (w_cancelled s)
        (w_notified s) (w_cancelling s) (w_shut s)
  | W_cancel e =>
      match w_cancelled s with
      | Some _ => s
      | None => Loop_state (w_at s) (w_vars s) (w_changed s) (w_written s) (w_status s) (w_flag s) (w_expired s) (Some e)
                  (w_notified s) (w_cancelling s) (w_shut s)
      end
  | W_on_cancel =>
      match w_cancelled s, w_notified s, w_at s with
      | Some _, false, Dropped => s     (* weak_state.lock() fails *)
      | Some e, false, _ =>
          Loop_state (w_at s) (w_vars s) (w_changed s) (w_written s) (w_status s) true (w_expired s) (w_cancelled s)
            true (if w_flag s then w_cancelling s else Some e) (w_shut s)
      | _, _, _ => s
      end
  | W_close_cancelled =>
      match w_cancelling s with
      | None => s
      | Some e =>
          Loop_state (w_at s) (w_vars s) (w_changed s) (w_written s)
            (if w_expired s then w_status s else Some (Err (Cancelled e))) (w_flag s) (w_expired s) (w_cancelled s)
            (w_notified s) None (w_shut s)
      end
  | W_shutdown =>
      match w_at s with
      | Scheduled | Resuming =>
          Loop_state Dropping (w_vars s) (w_changed s) (w_written s) (w_status s) (w_flag s) (w_expired s) (w_cancelled s)
            (w_notified s) (w_cancelling s) true
      | _ => s
      end
  end.

(** stream_while.cc:171-207, 278-314: the state must not have a variable with the name of the last one;
    a loop that yields writes the initial value. *)
Definition w_start (last : string) (initial : value) (initial_state : variables value) : option loop_state :=
  if existsb (fun x => String.eqb (fst x) last) initial_state then None
  else Some (Loop_state Starting (initial_state ++ [(last, initial)]) false
               (match m with Yields => [initial] | Returns => [] end)
               None false false None false None false).
Definition w_run (initial : value) (s : loop_state) (ops : list event) : loop_state := fold_left (w_step initial) ops s.
End Model.

Arguments Starting {E}.
Arguments Scheduled {E}.
Arguments Resuming {E}.
Arguments Asking {E}.
Arguments Running {E}.
Arguments Handing {E}.
Arguments Winding {E}.
Arguments Sealing {E}.
Arguments Breaking {E} e.
Arguments Listening {E}.
Arguments Sleeping {E}.
Arguments Dropping {E}.
Arguments Dropped {E}.
Arguments Loop_state {value E}.
Arguments w_at {value E} l.
Arguments w_vars {value E} l.
Arguments w_changed {value E} l.
Arguments w_written {value E} l.
Arguments w_status {value E} l.
Arguments w_flag {value E} l.
Arguments w_expired {value E} l.
Arguments w_cancelled {value E} l.
Arguments w_notified {value E} l.
Arguments w_cancelling {value E} l.
Arguments w_shut {value E} l.
Arguments W_step {E} now.
Arguments W_notify {E}.
Arguments W_expire {E}.
Arguments W_cancel {E} e.
Arguments W_on_cancel {E}.
Arguments W_close_cancelled {E}.
Arguments W_shutdown {E}.
Arguments moved {value E} p s.
Arguments with_vars {value E} l c s.
Arguments w_orphaned {value E} s.
Arguments w_try_write {value E} v s.
Arguments w_try_close {value E} st s.
Arguments w_interrupted {value E} s.
Arguments decided {value E} c s.
Arguments w_routine {value type E} type_of type_eqb m condition_functor body_functor initial now s.
Arguments w_step {value type E} type_of type_eqb m condition_functor body_functor initial s o.
Arguments w_start {value E} m last initial initial_state.
Arguments w_run {value type E} type_of type_eqb m condition_functor body_functor initial s ops.
