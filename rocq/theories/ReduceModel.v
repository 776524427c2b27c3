(** Reducing a stream: koladata/functor/parallel/stream_reduce.cc, with the routine of basic_routine.cc
    and the writer of stream.cc.

    A run is a list of steps of any threads: the thread of the routine (one step for each call of the
    reader, the writer or the functor), those that write to the input stream, cancel the computation, drop
    the output stream, or shut the executor down. The functor is any function of two values. The messages
    of errors are left out. *)
From Coq Require Import List Bool Arith.
Import ListNotations.

Section Model.
Variables (value type E : Type).
Variable type_of : value -> type.
Variable type_eqb : type -> type -> bool.

Inductive error :=
| Given (e : E)        (* the error of the functor or of the input stream *)
| WrongType            (* stream_reduce.cc:70-72 *)
| Cancelled (e : E)    (* the computation is cancelled *)
| Orphaned.            (* stream.cc:296: the writer is destroyed before it is closed *)
Inductive status := OK | Err (e : error).

Variable functor : value -> value -> value + E.
Variable initial : value.

(** The next step of the routine *)
Inductive pc :=
| Starting                 (* basic_routine.cc:100 *)
| Queued                   (* in the queue of the executor *)
| Reading                  (* stream_reduce.cc:62, 74 *)
| Calling (item : value)   (* stream_reduce.cc:64-72 *)
| Writing                  (* stream_reduce.cc:77 *)
| Closing                  (* stream_reduce.cc:78 after a write *)
| Failing (e : error)      (* stream_reduce.cc:78 with an error, and 87 *)
| Subscribing              (* basic_routine.cc:67-70 *)
| Waiting                  (* subscribed *)
| Leaving                  (* the state of the routine is about to be destroyed *)
| Gone.

Record state := State {
  log : list value;              (* the input stream: what was written, its status, our position *)
  in_closed : option (option E); (* Some None: closed with success *)
  position : nat;
  at_ : pc;
  acc : value;                   (* value_ *)
  written : list value;          (* the output stream *)
  out_status : option status;
  flag : bool;                   (* closed_ of the writer *)
  expired : bool;                (* nobody holds the output stream *)
  cancelled : option E;          (* the cancellation context *)
  notified : bool;               (* its subscribers are called *)
  cancelling : option E }.       (* a thread is between 283 and 287 of TryClose for OnCancel *)

Definition goto (p : pc) (s : state) : state :=
  State (log s) (in_closed s) (position s) p (acc s) (written s) (out_status s) (flag s)
    (expired s) (cancelled s) (notified s) (cancelling s).
Definition set_acc (v : value) (s : state) : state :=
  State (log s) (in_closed s) (position s) (at_ s) v (written s) (out_status s) (flag s)
    (expired s) (cancelled s) (notified s) (cancelling s).

(** stream.cc:232-234 Orphaned; stream_reduce.cc:52 Interrupted of the hooks *)
Definition orphaned (s : state) : bool := flag s || expired s.
(** stream.cc:255-271 TryWrite *)
Definition try_write (v : value) (s : state) : bool * state :=
  if expired s then (false, s)
  else match out_status s with
       | Some _ => (false, s)
       | None => (true, State (log s) (in_closed s) (position s) (at_ s) (acc s) (written s ++ [v])
                          (out_status s) (flag s) (expired s) (cancelled s) (notified s) (cancelling s))
       end.
(** stream.cc:282-289 TryClose and 291-298 ~Writer, in one step: only [Cancel] comes between *)
Definition try_close (st : status) (s : state) : state :=
  if flag s then s
  else State (log s) (in_closed s) (position s) (at_ s) (acc s) (written s)
         (if expired s then out_status s else Some st) true (expired s) (cancelled s) (notified s) (cancelling s).
(** basic_routine.cc:50-54 Interrupted *)
Definition interrupted (s : state) : bool :=
  match cancelled s with Some _ => true | None => orphaned s end.

(** One step of the routine *)
Definition routine_step (s : state) : state :=
  match at_ s with
  | Starting => if interrupted s then goto Leaving s else goto Queued s
  | Queued => goto Reading s
  | Reading =>
      match nth_error (log s) (position s) with
      | Some v =>
          State (log s) (in_closed s) (S (position s)) (Calling v) (acc s) (written s) (out_status s) (flag s)
            (expired s) (cancelled s) (notified s) (cancelling s)
      | None =>
          match in_closed s with
          | None => goto Subscribing s
          | Some (Some e) => goto (Failing (Given e)) s
          | Some None => goto Writing s
          end
      end
  | Calling item =>
      if orphaned s then goto Leaving s
      else match functor (acc s) item with
           | inr e => goto (Failing (Given e)) s
           | inl v =>
               if type_eqb (type_of v) (type_of initial) then goto Reading (set_acc v s)
               else goto (Failing WrongType) (set_acc v s)
           end
  | Writing => let (ok, s) := try_write (acc s) s in goto (if ok then Closing else Leaving) s
  | Closing => goto Leaving (try_close OK s)
  | Failing e => goto Leaving (try_close (Err e) s)
  | Subscribing => if interrupted s then goto Leaving s else goto Waiting s
  | Waiting => s
  | Leaving => goto Gone (try_close (Err Orphaned) s)
  | Gone => s
  end.

Inductive op :=
| Step                  (* the thread of the routine *)
| Notify                (* the callback of SubscribeOnce *)
| Write_input (v : value) | Close_input (st : option E)
| Expire                (* the output stream is dropped *)
| Cancel (e : E)        (* the computation is cancelled ... *)
| Call_on_cancel        (* ... and the subscriber called, basic_routine.cc:89-98, up to stream.cc:283 *)
| Close_cancelled       (* stream.cc:286-288 of it *)
| Shutdown.             (* the executor drops what is queued *)

(** There is something to read *)
Definition ready (s : state) : bool :=
  match nth_error (log s) (position s), in_closed s with None, None => false | _, _ => true end.
Definition step (s : state) (o : op) : state :=
  match o with
  | Step => routine_step s
  | Notify =>
      (* basic_routine.cc:70-76 *)
      match at_ s with
      | Waiting => if ready s then (if interrupted s then goto Leaving s else goto Queued s) else s
      | _ => s
      end
  | Write_input v =>
      match in_closed s with
      | Some _ => s
      | None => State (log s ++ [v]) None (position s) (at_ s) (acc s) (written s) (out_status s) (flag s)
                  (expired s) (cancelled s) (notified s) (cancelling s)
      end
  | Close_input st =>
      match in_closed s with
      | Some _ => s
      | None => State (log s) (Some st) (position s) (at_ s) (acc s) (written s) (out_status s) (flag s)
                  (expired s) (cancelled s) (notified s) (cancelling s)
      end
  | Expire =>
      State (log s) (in_closed s) (position s) (at_ s) (acc s) (written s) (out_status s) (flag s)
        true (cancelled s) (notified s) (cancelling s)
  | Cancel e =>
      match cancelled s with
      | Some _ => s
      | None => State (log s) (in_closed s) (position s) (at_ s) (acc s) (written s) (out_status s) (flag s)
                  (expired s) (Some e) (notified s) (cancelling s)
      end
  | Call_on_cancel =>
      match cancelled s, notified s, at_ s with
      | Some _, false, Gone => s        (* weak_state.lock() fails *)
      | Some e, false, _ =>
          State (log s) (in_closed s) (position s) (at_ s) (acc s) (written s) (out_status s) true
            (expired s) (cancelled s) true (if flag s then cancelling s else Some e)
      | _, _, _ => s
      end
  | Close_cancelled =>
      match cancelling s with
      | None => s
      | Some e =>
          State (log s) (in_closed s) (position s) (at_ s) (acc s) (written s)
            (if expired s then out_status s else Some (Err (Cancelled e))) (flag s)
            (expired s) (cancelled s) (notified s) None
      end
  | Shutdown => match at_ s with Queued => goto Leaving s | _ => s end
  end.

(** stream_reduce.cc:99-110 *)
Definition start : state := State [] None 0 Starting initial [] None false false None false None.
Definition run (ops : list op) : state := fold_left step ops start.
End Model.

Arguments Given {E} e.
Arguments WrongType {E}.
Arguments Cancelled {E} e.
Arguments Orphaned {E}.
Arguments OK {E}.
Arguments Err {E} e.
Arguments Starting {value E}.
Arguments Queued {value E}.
Arguments Reading {value E}.
Arguments Calling {value E} item.
Arguments Writing {value E}.
Arguments Closing {value E}.
Arguments Failing {value E} e.
Arguments Subscribing {value E}.
Arguments Waiting {value E}.
Arguments Leaving {value E}.
Arguments Gone {value E}.
Arguments Step {value E}.
Arguments Notify {value E}.
Arguments Write_input {value E} v.
Arguments Close_input {value E} st.
Arguments Expire {value E}.
Arguments Cancel {value E} e.
Arguments Call_on_cancel {value E}.
Arguments Close_cancelled {value E}.
Arguments Shutdown {value E}.
Arguments State {value E}.
Arguments log {value E} s.
Arguments in_closed {value E} s.
Arguments position {value E} s.
Arguments at_ {value E} s.
Arguments acc {value E} s.
Arguments written {value E} s.
Arguments out_status {value E} s.
Arguments flag {value E} s.
Arguments expired {value E} s.
Arguments cancelled {value E} s.
Arguments notified {value E} s.
Arguments cancelling {value E} s.
Arguments goto {value E} p s.
Arguments set_acc {value E} v s.
Arguments orphaned {value E} s.
Arguments try_write {value E} v s.
Arguments try_close {value E} st s.
Arguments interrupted {value E} s.
Arguments ready {value E} s.
Arguments routine_step {value type E} type_of type_eqb functor initial s.
Arguments step {value type E} type_of type_eqb functor initial s o.
Arguments start {value E} initial.
Arguments run {value type E} type_of type_eqb functor initial ops.
