(** Loops over streams: koladata/functor/parallel/stream_for.cc with the variables of
    stream_loop_internal.cc, the routine of basic_routine.cc and the writer of stream.cc.

    A run is a list of steps of any threads: the thread of the routine (one step for each call of the
    reader, the writer or a functor), those that write to the input stream, cancel the computation, drop
    the output stream, or shut the executor down. Functors are any functions of the variables (and the
    item). The messages of errors are left out. *)
From Coq Require Import String.
From Coq Require Import List Bool Arith.
Import ListNotations.
Local Open Scope string_scope.
Local Open Scope nat_scope.
Local Open Scope list_scope.

Section Model.
Variables (value type E : Type).
Variable type_of : value -> type.
Variable type_eqb : type -> type -> bool.

Inductive error :=
| Given (e : E)        (* the error of a functor, of a condition or of the input stream *)
| BadUpdate            (* a functor does not return a namedtuple of some of the variables *)
| Cancelled (e : E)    (* the computation is cancelled *)
| Orphaned.            (* stream.cc:296: the writer is destroyed before it is closed *)
Inductive status := OK | Err (e : error).

Definition variables := list (string * value).
(** What a functor returns: an error, a namedtuple, or something else *)
Inductive returned := Error_of (e : E) | Namedtuple (u : variables) | Other.
(** stream_loop_internal.cc:43-95: what a condition comes to, at once or when its stream has an item
    or is closed *)
Inductive condition := Yes | No | Bad (e : E).

(** stream_for.cc:159-225, 272-359: the loop returns the last variable, or writes what its steps yield *)
Inductive mode := Returns | Yields.
Record functors := {
  body : value -> variables -> returned;
  finalize : option (variables -> returned);
  loop_condition : option (variables -> condition) }.
Variables (m : mode) (f : functors).

(** stream_loop_internal.cc:124-134: index_ finds the variable of a name (names are distinct) *)
Definition set_variable (vars : variables) (n : string) (v : value) : option variables :=
  match find (fun x => String.eqb (fst x) n) vars with
  | None => None
  | Some (_, old) =>
      if type_eqb (type_of old) (type_of v)
      then Some (map (fun x => if String.eqb (fst x) n then (fst x, v) else x) vars)
      else None
  end.
(** stream_loop_internal.cc:114-141 Update *)
Fixpoint update_fields (vars u : variables) : option variables :=
  match u with
  | [] => Some vars
  | (n, v) :: u =>
      match set_variable vars n v with
      | None => None
      | Some vars => update_fields vars u
      end
  end.
Definition update (vars : variables) (r : returned) : variables + error :=
  match r with
  | Error_of e => inr (Given e)
  | Other => inr BadUpdate
  | Namedtuple u => match update_fields vars u with Some vars => inl vars | None => inr BadUpdate end
  end.

(** What a routine waits for, or whether it starts *)
Inductive wait := At_start | On_input | On_condition.
(** The next step of the routine *)
Inductive pc :=
| Queued (w : wait)            (* in the queue of the executor *)
| Calling_condition            (* stream_for.cc:65, 110 *)
| Reading                      (* stream_for.cc:105 *)
| Calling_body (item : value)  (* stream_for.cc:109 *)
| Yielding (final : bool)      (* stream_for.cc:341-351, after the body or after the finalizer *)
| Finalizing                   (* stream_for.cc:128 *)
| Succeeding                   (* stream_for.cc:130 *)
| Closing                      (* stream_for.cc:214 *)
| Failing (e : error)          (* stream_for.cc:88-91 *)
| Subscribing (w : wait)       (* basic_routine.cc:67-70, and 100 at the start *)
| Waiting (w : wait)           (* subscribed *)
| Leaving                      (* the state of the routine is about to be destroyed *)
| Gone.

Record state := State {
  log : list value;              (* the input stream: what was written, its status, our position *)
  in_closed : option (option E); (* Some None: closed with success *)
  position : nat;
  at_ : pc;
  vars : variables;              (* the last one is `returns`, or what is yielded *)
  changed : bool;                (* the last variable is not the initial object *)
  written : list value;          (* the output stream *)
  out_status : option status;
  flag : bool;                   (* closed_ of the writer *)
  expired : bool;                (* nobody holds the output stream *)
  cancelled : option E;          (* the cancellation context *)
  notified : bool;               (* its subscribers are called *)
  cancelling : option E;         (* a thread is between 283 and 287 of TryClose for OnCancel *)
  shut : bool }.                 (* the executor dropped the routine *)

Definition goto (p : pc) (s : state) : state :=
  State (log s) (in_closed s) (position s) p (vars s) (changed s) (written s) (out_status s) (flag s)
    (expired s) (cancelled s) (notified s) (cancelling s) (shut s).
Definition set_vars (l : variables) (c : bool) (s : state) : state :=
  State (log s) (in_closed s) (position s) (at_ s) l c (written s) (out_status s) (flag s)
    (expired s) (cancelled s) (notified s) (cancelling s) (shut s).

(** stream.cc:232-234 Orphaned *)
Definition orphaned (s : state) : bool := flag s || expired s.
(** stream.cc:255-271 TryWrite *)
Definition try_write (v : value) (s : state) : bool * state :=
  if expired s then (false, s)
  else match out_status s with
       | Some _ => (false, s)
       | None => (true, State (log s) (in_closed s) (position s) (at_ s) (vars s) (changed s) (written s ++ [v])
                          (out_status s) (flag s) (expired s) (cancelled s) (notified s) (cancelling s) (shut s))
       end.
(** stream.cc:282-289 TryClose and 291-298 ~Writer, in one step: only [Cancel] comes between *)
Definition try_close (st : status) (s : state) : state :=
  if flag s then s
  else State (log s) (in_closed s) (position s) (at_ s) (vars s) (changed s) (written s)
         (if expired s then out_status s else Some st) true (expired s) (cancelled s) (notified s) (cancelling s) (shut s).
(** basic_routine.cc:50-54 Interrupted *)
Definition interrupted (s : state) : bool :=
  match cancelled s with Some _ => true | None => orphaned s end.

(** What the functors get: in a loop that yields, not the last variable *)
Definition arguments (l : variables) : variables :=
  match m with Returns => l | Yields => removelast l end.
(** Whether an update sets the last variable: its reference is then another one *)
Definition sets_last (l : variables) (r : returned) : bool :=
  match r, rev l with
  | Namedtuple u, (n, _) :: _ => existsb (fun x => String.eqb (fst x) n) u
  | _, _ => false
  end.
(** After a functor was called: stream_for.cc:182-187, 296-306 and 194-199, 313-323 *)
Definition apply_update (r : returned) (final : bool) (s : state) : state :=
  match update (vars s) r with
  | inr e => goto (Failing e) s
  | inl l =>
      let s := set_vars l (changed s || sets_last l r) s in
      match m with
      | Yields => goto (Yielding final) s
      | Returns => goto (if final then Succeeding else Calling_condition) s
      end
  end.
(** How it goes on with a condition: stream_for.cc:101, 113-130 *)
Definition with_condition (c : condition) (s : state) : state :=
  match c with
  | Yes => goto Reading s
  | No => goto Succeeding s
  | Bad e => goto (Failing (Given e)) s
  end.
Definition last_value (l : variables) : option value := match rev l with (_, v) :: _ => Some v | [] => None end.
Definition set_last (l : variables) (v : value) : variables :=
  match rev l with (n, _) :: r => rev r ++ [(n, v)] | [] => [] end.

(** One step of the routine. [now]: the condition is there at once. [initial]: the value yielded first *)
Definition routine_step (initial : value) (now : bool) (s : state) : state :=
  match at_ s with
  | Queued At_start => goto Calling_condition s
  | Queued On_input => goto Reading s
  | Queued On_condition =>
      (* 80-84: ParseLoopConditionStream *)
      match loop_condition f with Some c => with_condition (c (arguments (vars s))) s | None => s end
  | Calling_condition =>
      if orphaned s then goto Succeeding s
      else match loop_condition f with
           | None => goto Reading s
           | Some c => if now then with_condition (c (arguments (vars s))) s else goto (Subscribing On_condition) s
           end
  | Reading =>
      match nth_error (log s) (position s) with
      | Some v =>
          goto (Calling_body v)
            (State (log s) (in_closed s) (S (position s)) (at_ s) (vars s) (changed s) (written s) (out_status s) (flag s)
               (expired s) (cancelled s) (notified s) (cancelling s) (shut s))
      | None =>
          match in_closed s with
          | None => goto (Subscribing On_input) s
          | Some (Some e) => goto (Failing (Given e)) s
          | Some None => goto Finalizing s
          end
      end
  | Calling_body v =>
      if orphaned s then goto Calling_condition s else apply_update (body f v (arguments (vars s))) false s
  | Finalizing =>
      if orphaned s then goto Succeeding s
      else match finalize f with
           | None => goto Succeeding s
           | Some g => apply_update (g (arguments (vars s))) true s
           end
  | Yielding final =>
      let next := if final then Succeeding else Calling_condition in
      if changed s then
        match last_value (vars s) with
        | None => s
        | Some v =>
            let (ok, s) := try_write v s in
            if ok then goto next (set_vars (set_last (vars s) initial) false s) else goto next s
        end
      else goto next s
  | Succeeding =>
      match m with
      | Yields => goto Leaving (try_close OK s)
      | Returns =>
          match last_value (vars s) with
          | None => s
          | Some v => let (ok, s) := try_write v s in goto (if ok then Closing else Leaving) s
          end
      end
  | Closing => goto Leaving (try_close OK s)
  | Failing e => goto Leaving (try_close (Err e) s)
  | Subscribing w =>
      if interrupted s then goto Leaving s
      else goto (match w with At_start => Queued At_start | _ => Waiting w end) s
  | Waiting _ => s
  | Leaving => goto Gone (try_close (Err Orphaned) s)
  | Gone => s
  end.

Inductive op :=
| Step (now : bool)     (* the thread of the routine *)
| Notify                (* the callback of SubscribeOnce; the condition may be there at any time *)
| Write_input (v : value) | Close_input (st : option E)
| Expire                (* the output stream is dropped *)
| Cancel (e : E)        (* the computation is cancelled ... *)
| Call_on_cancel        (* ... and the subscriber called, basic_routine.cc:89-98, up to stream.cc:283 *)
| Close_cancelled       (* stream.cc:286-288 of it *)
| Shutdown.             (* the executor drops what is queued *)

Definition ready (w : wait) (s : state) : bool :=
  match w with
  | At_start => true
  | On_input => match nth_error (log s) (position s), in_closed s with None, None => false | _, _ => true end
  | On_condition => true
  end.
Definition step (initial : value) (s : state) (o : op) : state :=
  match o with
  | Step now => routine_step initial now s
  | Notify =>
      (* basic_routine.cc:70-76 *)
      match at_ s with
      | Waiting w => if ready w s then (if interrupted s then goto Leaving s else goto (Queued w) s) else s
      | _ => s
      end
  | Write_input v =>
      match in_closed s with
      | Some _ => s
      | None => State (log s ++ [v]) None (position s) (at_ s) (vars s) (changed s) (written s) (out_status s) (flag s)
                  (expired s) (cancelled s) (notified s) (cancelling s) (shut s)
      end
  | Close_input st =>
      match in_closed s with
      | Some _ => s
      | None => State (log s) (Some st) (position s) (at_ s) (vars s) (changed s) (written s) (out_status s) (flag s)
                  (expired s) (cancelled s) (notified s) (cancelling s) (shut s)
      end
  | Expire =>
      State (log s) (in_closed s) (position s) (at_ s) (vars s) (changed s) (written s) (out_status s) (flag s)
        true (cancelled s) (notified s) (cancelling s) (shut s)
  | Cancel e =>
      match cancelled s with
      | Some _ => s
      | None => State (log s) (in_closed s) (position s) (at_ s) (vars s) (changed s) (written s) (out_status s) (flag s)
                  (expired s) (Some e) (notified s) (cancelling s) (shut s)
      end
  | Call_on_cancel =>
      match cancelled s, notified s, at_ s with
      | Some _, false, Gone => s        (* weak_state.lock() fails *)
      | Some e, false, _ =>
          State (log s) (in_closed s) (position s) (at_ s) (vars s) (changed s) (written s) (out_status s) true
            (expired s) (cancelled s) true (if flag s then cancelling s else Some e) (shut s)
      | _, _, _ => s
      end
  | Close_cancelled =>
      match cancelling s with
      | None => s
      | Some e =>
          State (log s) (in_closed s) (position s) (at_ s) (vars s) (changed s) (written s)
            (if expired s then out_status s else Some (Err (Cancelled e))) (flag s)
            (expired s) (cancelled s) (notified s) None (shut s)
      end
  | Shutdown =>
      match at_ s with
      | Queued _ =>
          State (log s) (in_closed s) (position s) Leaving (vars s) (changed s) (written s) (out_status s) (flag s)
            (expired s) (cancelled s) (notified s) (cancelling s) true
      | _ => s
      end
  end.

(** stream_for.cc:229-268, 363-403: the state must not have a variable with the name of the last one;
    a loop that yields writes the initial value. *)
Definition start (last : string) (initial : value) (initial_state : variables) : option state :=
  if existsb (fun x => String.eqb (fst x) last) initial_state then None
  else Some (State [] None 0 (Subscribing At_start) (initial_state ++ [(last, initial)]) false
               (match m with Yields => [initial] | Returns => [] end)
               None false false None false None false).
Definition run (initial : value) (s : state) (ops : list op) : state := fold_left (step initial) ops s.
End Model.

Arguments Given {E} e.
Arguments BadUpdate {E}.
Arguments Cancelled {E} e.
Arguments Orphaned {E}.
Arguments OK {E}.
Arguments Err {E} e.
Arguments Error_of {value E} e.
Arguments Namedtuple {value E} u.
Arguments Other {value E}.
Arguments Yes {E}.
Arguments No {E}.
Arguments Bad {E} e.
Arguments body {value E} f _ _.
Arguments finalize {value E} f.
Arguments loop_condition {value E} f.
Arguments Build_functors {value E} body finalize loop_condition.
Arguments Queued {value E} w.
Arguments Calling_condition {value E}.
Arguments Reading {value E}.
Arguments Calling_body {value E} item.
Arguments Yielding {value E} final.
Arguments Finalizing {value E}.
Arguments Succeeding {value E}.
Arguments Closing {value E}.
Arguments Failing {value E} e.
Arguments Subscribing {value E} w.
Arguments Waiting {value E} w.
Arguments Leaving {value E}.
Arguments Gone {value E}.
Arguments Step {value E} now.
Arguments Notify {value E}.
Arguments Write_input {value E} v.
Arguments Close_input {value E} st.
Arguments Expire {value E}.
Arguments Cancel {value E} e.
Arguments Call_on_cancel {value E}.
Arguments Close_cancelled {value E}.
Arguments Shutdown {value E}.
Arguments log {value E} s.
Arguments in_closed {value E} s.
Arguments position {value E} s.
Arguments at_ {value E} s.
Arguments vars {value E} s.
Arguments changed {value E} s.
Arguments written {value E} s.
Arguments out_status {value E} s.
Arguments flag {value E} s.
Arguments expired {value E} s.
Arguments cancelled {value E} s.
Arguments notified {value E} s.
Arguments cancelling {value E} s.
Arguments shut {value E} s.
Arguments goto {value E} p s.
Arguments set_vars {value E} l c s.
Arguments orphaned {value E} s.
Arguments try_write {value E} v s.
Arguments try_close {value E} st s.
Arguments interrupted {value E} s.
Arguments arguments {value} m l.
Arguments sets_last {value E} l r.
Arguments last_value {value} l.
Arguments set_last {value} l v.
Arguments with_condition {value E} c s.
Arguments ready {value E} w s.
Arguments set_variable {value type} type_of type_eqb vars n v.
Arguments update_fields {value type} type_of type_eqb vars u.
Arguments update {value type E} type_of type_eqb vars r.
Arguments apply_update {value type E} type_of type_eqb m r final s.
Arguments routine_step {value type E} type_of type_eqb m f initial now s.
Arguments step {value type E} type_of type_eqb m f initial s o.
Arguments start {value E} m last initial initial_state.
Arguments run {value type E} type_of type_eqb m f initial s ops.
