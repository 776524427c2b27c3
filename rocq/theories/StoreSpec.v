(** What users of bag managers rely on, in terms of named bags and the history
    of committed changes of a directory. *)
From Coq Require Import String.
From Coq Require Import NArith List Bool Relations.
From Verif Require Import StoreModel.
Import ListNotations.

Section Spec.
Context {Bag Custom : Type}.
Notation to_add := (@to_add Bag Custom).

(** ** Dependencies *)

(** Bag [a] names bag [b] as a dependency. *)
Definition depends (bags : list to_add) (a b : string) : Prop :=
  exists x, In x bags /\ a_name x = a /\ In b (a_deps x).

(** [b] is [a], or a dependency of it, or a dependency of a dependency ... *)
Definition depends_star (bags : list to_add) : string -> string -> Prop :=
  clos_refl_trans string (depends bags).

(** The bags that a request for [names] must contain: the named bags (with all
    dependents: also everything that depends on them) and all that these
    depend on. *)
Definition needed (bags : list to_add) (names : list string)
  (with_all_dependents : bool) (b : string) : Prop :=
  exists a,
    depends_star bags a b
    /\ (In a names
        \/ with_all_dependents = true
           /\ exists n, In n names /\ depends_star bags a n).

(** [sel] are the needed bags, each once, in the order in which they were
    added. *)
Definition selection (bags : list to_add) (names : list string)
  (with_all_dependents : bool) (sel : list to_add) : Prop :=
  exists keep : to_add -> bool,
    sel = filter keep bags
    /\ forall x, In x bags ->
         (keep x = true <-> needed bags names with_all_dependents (a_name x)).

(** The bag without its custom metadata *)
Definition without_custom (x : to_add) : to_add :=
  ToAdd (a_name x) (a_bag x) (a_deps x) None.

(** Names are unique, and every bag comes after all that it depends on. *)
Definition dependencies_first (bags : list to_add) : Prop :=
  forall before x after, bags = before ++ x :: after ->
    forall s, In s (a_deps x) -> In s (map a_name before).
Definition unique_names (bags : list to_add) : Prop := NoDup (map a_name bags).

(** ** Committed changes *)

Definition apply_change (state : option (list to_add)) (c : change)
  : option (list to_add) :=
  match c with
  | Created => Some []
  | BagsAdded bags =>
      match state with None => None | Some l => Some (l ++ bags) end
  | BranchOf bags => Some bags
  end.

Definition changes_of (d : dir) (log : list commit) : list (@change Bag Custom) :=
  map c_change (filter (fun c => String.eqb (c_dir c) d) log).

(** The bags of a directory after a history of commits *)
Definition replay (log : list commit) (d : dir) : option (list to_add) :=
  fold_left apply_change (changes_of d log) None.

(** ** What is in a directory *)

(** Opening directory [d] now, and loading all that its metadata lists *)
Definition reopened (fs : @files Bag Custom) (d : dir) : option (@meta Custom) :=
  match latest_name fs d with
  | None => None
  | Some f =>
      match look fs (d, f) with Some (MetaContent m) => Some m | _ => None end
  end.
Definition visible (w : @world Bag Custom) (d : dir) : option (list to_add) :=
  match reopened (w_files w) d with
  | None => None
  | Some m => stored (w_files w) d m
  end.

(** The bags of a manager object *)
Definition bags_of (w : @world Bag Custom) (g : manager) : option (list to_add) :=
  stored (w_files w) (g_dir g) (g_meta g).

(** Names of metadata files have room for twelve digits. *)
Definition few_updates (w : @world Bag Custom) : Prop :=
  forall c, In c (w_log w) -> (c_number c < 10 ^ 12)%N.

(** ** Calls *)

(** Events that happen while thread [t] is in a call *)
Definition during (t : nat) (es : list (@event Bag Custom)) : Prop :=
  forall ev, In ev es ->
    match ev with Start t' _ | Stop t' => t' <> t | _ => True end.

(** Some file operation of [t] raised. *)
Definition io_error (t : nat) (es : list (@event Bag Custom)) : Prop :=
  exists n, In (Fail t n) es.

(** The commits of thread [t] *)
Definition own (t : nat) (log : list commit) : list (@commit Bag Custom) :=
  filter (fun c => Nat.eqb (c_thread c) t) log.

End Spec.
