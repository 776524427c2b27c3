(** A loop over a list of items that are there, one after the other. *)
From Coq Require Import String.
From Coq Require Import List Bool Arith.
From Verif Require Import ForModel.
Import ListNotations.
Local Open Scope list_scope.

Section Spec.
Variables (value type E : Type).
Variable type_of : value -> type.
Variable type_eqb : type -> type -> bool.
Variables (m : mode) (f : functors value E) (last : string) (initial : value).

(** The value that u has for n *)
Fixpoint given (n : string) (u : variables value) : option value :=
  match u with
  | [] => None
  | (k, v) :: u => match given n u with Some w => Some w | None => if String.eqb k n then Some v else None end
  end.
(** All of u are variables, and of their types *)
Definition allowed (l u : variables value) : bool :=
  forallb (fun x => existsb (fun y => String.eqb (fst y) (fst x) && type_eqb (type_of (snd y)) (type_of (snd x))) l) u.
(** The variables with the values that u has for them *)
Definition overwritten (l u : variables value) : variables value :=
  map (fun x => (fst x, match given (fst x) u with Some v => v | None => snd x end)) l.

(** The variables after a functor, and what it yields *)
Definition outcome (r : returned value E) (l : variables value) : (variables value * list value) + error E :=
  match r with
  | Error_of e => inr (Given e)
  | Other => inr BadUpdate
  | Namedtuple u =>
      match m with
      | Returns => if allowed l u then inl (overwritten l u, []) else inr BadUpdate
      | Yields =>
          if allowed (l ++ [(last, initial)]) u
          then inl (overwritten l u, match given last u with Some v => [v] | None => [] end)
          else inr BadUpdate
      end
  end.
(** What is written at the end *)
Definition result (l : variables value) : list value :=
  match m with Yields => [] | Returns => match given last l with Some v => [v] | None => [] end end.

(** The loop waits for more items, or it ends *)
Inductive ending := Going | Ends (st : status E).
Definition finished (l : variables value) : list value * ending := (result l, Ends OK).
Definition then_ (out : list value) (x : list value * ending) : list value * ending := (out ++ fst x, snd x).
(** When all items are used up *)
Definition exhausted (closed : option (option E)) (l : variables value) : list value * ending :=
  match closed with
  | None => ([], Going)
  | Some (Some e) => ([], Ends (Err (Given e)))
  | Some None =>
      match finalize f with
      | None => finished l
      | Some g => match outcome (g l) l with inr e => ([], Ends (Err e)) | inl (l, out) => then_ out (finished l) end
      end
  end.
(** The loop over items, which may be followed by more unless the stream is closed *)
Fixpoint loop (items : list value) (closed : option (option E)) (l : variables value) : list value * ending :=
  match match loop_condition f with None => Yes | Some c => c l end with
  | Bad e => ([], Ends (Err (Given e)))
  | No => finished l
  | Yes =>
      match items with
      | [] => exhausted closed l
      | x :: items =>
          match outcome (body f x l) l with
          | inr e => ([], Ends (Err e))
          | inl (l, out) => then_ out (loop items closed l)
          end
      end
  end.

(** What a loop writes, and how it ends *)
Definition looped (initial_state : variables value) (items : list value) (closed : option (option E)) : list value * ending :=
  match m with
  | Returns => loop items closed (initial_state ++ [(last, initial)])
  | Yields => then_ [initial] (loop items closed initial_state)
  end.

(** What a run puts into the input stream *)
Definition put_in (x : list value * option (option E)) (o : op value E) : list value * option (option E) :=
  match snd x, o with
  | None, Write_input v => (fst x ++ [v], None)
  | None, Close_input st => (fst x, Some st)
  | _, _ => x
  end.
Definition input (ops : list (op value E)) : list value * option (option E) := fold_left put_in ops ([], None).

Definition prefix (a b : list value) : Prop := exists c, b = a ++ c.
End Spec.
Arguments Going {E}.
Arguments Ends {E} st.
Arguments given {value} n u.
Arguments allowed {value type} type_of type_eqb l u.
Arguments overwritten {value} l u.
Arguments outcome {value type E} type_of type_eqb m last initial r l.
Arguments result {value} m last l.
Arguments finished {value E} m last l.
Arguments then_ {value E} out x.
Arguments exhausted {value type E} type_of type_eqb m f last initial closed l.
Arguments loop {value type E} type_of type_eqb m f last initial items closed l.
Arguments looped {value type E} type_of type_eqb m f last initial initial_state items closed.
Arguments prefix {value} a b.
Arguments put_in {value E} x o.
Arguments input {value E} ops.
