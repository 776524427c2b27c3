(** Recursion without a stack: koladata/internal/op_utils/trampoline_executor.h and .cc.

    Callbacks are the elements of any type [C]; [invoke] says what each does with the state that
    callbacks share, its status, and which callbacks it enqueues. That it enqueues them while it is
    running makes no difference, since [Enqueue] only appends to a buffer. Nothing is assumed of
    [invoke], so that a program may also run forever. *)
From Coq Require Import List Bool Arith.
Import ListNotations.

Section Trampoline.
Variables (S E C : Type).
(** A call of a callback; the status None is OK. trampoline_executor.h:76 *)
Variable invoke : C -> S -> S * option E * list C.

(** trampoline_executor.h:112-113; the last elements of the vectors are last *)
Record executor := mkExecutor { stack_ : list C; buffer_ : list C }.

(** trampoline_executor.cc:24-26 Enqueue *)
Definition enqueue (x : executor) (c : C) : executor := mkExecutor (stack_ x) (buffer_ x ++ [c]).
(** A callback is called, and it enqueues its callbacks in their order *)
Definition call (x : executor) (c : C) (s : S) : S * option E * executor :=
  let '(s, st, cs) := invoke c s in (s, st, fold_left enqueue cs x).

(** trampoline_executor.cc:38-43 FlushBuffer: the loop goes from the end of the buffer *)
Definition flush_buffer (x : executor) : executor :=
  mkExecutor (fold_left (fun st c => st ++ [c]) (rev (buffer_ x)) (stack_ x)) [].
(** stack_.pop_back() *)
Definition pop_back (x : executor) : executor := mkExecutor (removelast (stack_ x)) (buffer_ x).

(** trampoline_executor.cc:30-34: one round of the loop. The callback is called while it is still
    on the stack. *)
Inductive round := Ended | Failed (s : S) (e : E) | Next (s : S) (x : executor).
Definition run_round (x : executor) (s : S) : round :=
  match rev (stack_ x) with
  | [] => Ended
  | c :: _ =>
      let '(s, st, x) := call x c s in
      match st with
      | Some e => Failed s e
      | None => Next s (flush_buffer (pop_back x))
      end
  end.
(** trampoline_executor.cc:30-35: the loop, for at most [fuel] calls; None: it has not ended by then *)
Fixpoint run_loop (fuel : nat) (x : executor) (s : S) : option (S * option E) :=
  match run_round x s with
  | Ended => Some (s, None)
  | Failed s e => match fuel with 0 => None | _ => Some (s, Some e) end
  | Next s x => match fuel with 0 => None | Datatypes.S fuel => run_loop fuel x s end
  end.
(** trampoline_executor.cc:28-36 Run *)
Definition run_executor (fuel : nat) (x : executor) (s : S) : option (S * option E) :=
  run_loop fuel (flush_buffer x) s.

(** trampoline_executor.h:82-87 Run: with at most [fuel] calls after that of the root callback *)
Definition run (fuel : nat) (root : C) (s : S) : option (S * option E) :=
  let '(s, st, x) := call (mkExecutor [] []) root s in
  match st with
  | Some e => Some (s, Some e)
  | None => run_executor fuel x s
  end.
End Trampoline.
Arguments mkExecutor {C} stack_ buffer_.
Arguments stack_ {C} e.
Arguments buffer_ {C} e.
Arguments enqueue {C} x c.
Arguments call {S E C} invoke x c s.
Arguments flush_buffer {C} x.
Arguments pop_back {C} x.
Arguments Ended {S E C}.
Arguments Failed {S E C} s e.
Arguments Next {S E C} s x.
Arguments run_round {S E C} invoke x s.
Arguments run_loop {S E C} invoke fuel x s.
Arguments run_executor {S E C} invoke fuel x s.
Arguments run {S E C} invoke fuel root s.
