(** Visiting functors: py/koladata/functor/visitor/visitor.py:24-64, 67-100.

    A functor is known by its item id; its variables are given in their order of evaluation, each with the
    functor that it holds, if it holds one. The callback is any function of the functor and of the results of
    its subfunctors; it may raise. Calls of it are logged. That the order of evaluation exists is assumed. *)
From Coq Require Import List Bool Arith.
Import ListNotations.

Section Model.
Variables (id name R E : Type).
Variable id_eqb : id -> id -> bool.
(** get_variable_evaluation_order, get_attr and is_fn *)
Variable variables : id -> list (name * option id).
Variable callback : id -> list (name * R) -> R + E.

Record state := State {
  visited : list (id * R);               (* _visited_functors, in the order of insertion *)
  calls : list (id * list (name * R)) }. (* the calls of the callback *)
Inductive outcome := Done (r : R) | Recursive (f : id) | Failed (e : E) | Out_of_fuel | Not_a_functor.

Fixpoint find_visited (l : list (id * R)) (f : id) : option R :=
  match l with [] => None | (g, r) :: l => if id_eqb g f then Some r else find_visited l f end.

(** visitor.py:55-59: the loop over the variables *)
Fixpoint visit_variables (visit : state -> id -> state * outcome) (s : state) (subs : list (name * R))
    (l : list (name * option id)) : state * (list (name * R) + outcome) :=
  match l with
  | [] => (s, inl subs)
  | (_, None) :: l => visit_variables visit s subs l
  | (x, Some g) :: l =>
      match visit s g with
      | (s, Done r) => visit_variables visit s (subs ++ [(x, r)]) l
      | (s, o) => (s, inr o)
      end
  end.
(** visitor.py:46-64 _visit_functor. [fuel] bounds the depth of the recursion *)
Fixpoint visit_functor (fuel : nat) (on_stack : list id) (s : state) (f : id) : state * outcome :=
  match fuel with
  | 0 => (s, Out_of_fuel)
  | S fuel =>
      if existsb (id_eqb f) on_stack then (s, Recursive f)
      else match find_visited (visited s) f with
           | Some r => (s, Done r)
           | None =>
               match visit_variables (visit_functor fuel (f :: on_stack)) s [] (variables f) with
               | (s, inr o) => (s, o)
               | (s, inl subs) =>
                   match callback f subs with
                   | inl r => (State (visited s ++ [(f, r)]) (calls s ++ [(f, subs)]), Done r)
                   | inr e => (State (visited s) (calls s ++ [(f, subs)]), Failed e)
                   end
               end
           end
  end.
(** visitor.py:41-44 visit, of a new visitor; [None] is not a functor *)
Definition visit_functors (fuel : nat) (f : option id) : state * outcome :=
  match f with
  | None => (State [] [], Not_a_functor)
  | Some f => visit_functor fuel [] (State [] []) f
  end.
End Model.
Arguments State {id name R}.
Arguments visited {id name R} s.
Arguments calls {id name R} s.
Arguments Done {id R E} r.
Arguments Recursive {id R E} f.
Arguments Failed {id R E} e.
Arguments Out_of_fuel {id R E}.
Arguments Not_a_functor {id R E}.
Arguments find_visited {id R} id_eqb l f.
Arguments visit_variables {id name R E} visit s subs l.
Arguments visit_functor {id name R E} id_eqb variables callback fuel on_stack s f.
Arguments visit_functors {id name R E} id_eqb variables callback fuel f.
