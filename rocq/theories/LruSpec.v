(** An LRU cache as one would describe it: a budget and the entries held, most
    recently used first. *)
From Coq Require Import ZArith List Bool.
From Verif Require Import LruModel.
Import ListNotations.
Open Scope Z_scope.

Section Spec.
Context {V : Type}.
Record lru := mkLru { budget : Z; recent_first : list (N * V * Z) }.

Definition key_of (e : N * V * Z) : N := fst (fst e).
Definition val_of (e : N * V * Z) : V := snd (fst e).
Definition size_of (e : N * V * Z) : Z := snd e.
Fixpoint sum_sizes (l : list (N * V * Z)) : Z :=
  match l with [] => 0 | e :: l' => size_of e + sum_sizes l' end.
Definition lookup (k : N) (l : list (N * V * Z)) := find (fun e => N.eqb (key_of e) k) l.
Definition without (k : N) (l : list (N * V * Z)) := filter (fun e => negb (N.eqb (key_of e) k)) l.

(** the longest most-recently-used prefix that fits into [room] *)
Fixpoint fitting (room : Z) (l : list (N * V * Z)) : list (N * V * Z) :=
  match l with
  | [] => []
  | e :: l' => if size_of e <=? room then e :: fitting (room - size_of e) l' else []
  end.

Definition spec_step (c : lru) (o : op V) : lru * out V :=
  match o with
  | OGet k =>
    match lookup k (recent_first c) with
    | None => (c, RValue None)
    | Some e => (mkLru (budget c) (e :: without k (recent_first c)), RValue (Some (val_of e)))
    end
  | OSet k v n =>
    match lookup k (recent_first c) with
    | Some e => (mkLru (budget c) (e :: without k (recent_first c)), RValue (Some (val_of e)))
    | None =>
      if n <=? budget c
      then (mkLru (budget c) ((k, v, n) :: fitting (budget c - n) (recent_first c)), RValue (Some v))
      else (c, RValue (Some v))
    end
  | ORemove k => (mkLru (budget c) (without k (recent_first c)), RUnit)
  | OSetMax m => if 0 <=? m then (mkLru m (fitting m (recent_first c)), RUnit) else (c, RError)
  | OClear => (mkLru (budget c) [], RUnit)
  | OTotal => (c, RInt (sum_sizes (recent_first c)))
  | OMax => (c, RInt (budget c))
  end.

Fixpoint spec_run (c : lru) (ops : list (op V)) : lru * list (out V) :=
  match ops with
  | [] => (c, [])
  | o :: ops' => let '(c1, r) := spec_step c o in
                 let '(c2, rs) := spec_run c1 ops' in (c2, r :: rs)
  end.

(** Sizes handed to set are byte counts. *)
Definition sizes_ok (o : op V) : Prop :=
  match o with OSet _ _ n => 0 <= n | _ => True end.

(** Position (from 1) in the history of the last read or write naming [k]. *)
Definition names (k : N) (o : op V) : bool :=
  match o with OGet k' | OSet k' _ _ => N.eqb k' k | _ => false end.
Fixpoint last_use_from (i : nat) (k : N) (h : list (op V)) (acc : nat) : nat :=
  match h with
  | [] => acc
  | o :: h' => last_use_from (S i) k h' (if names k o then S i else acc)
  end.
Definition last_use (k : N) (h : list (op V)) : nat := last_use_from 0 k h 0.

(** The value most recently handed back by a write to [k], reading the history
    of operations together with their answers. *)
Fixpoint last_answer (k : N) (h : list (op V)) (rs : list (out V)) (acc : option V) : option V :=
  match h, rs with
  | o :: h', r :: rs' =>
    last_answer k h' rs'
      (match o, r with
       | OSet k' _ _, RValue v => if N.eqb k' k then v else acc
       | _, _ => acc end)
  | _, _ => acc
  end.

(** [k] is in the cache *)
Definition held (c : cache V) (k : N) : Prop := In k (map ekey (dict c)).
End Spec.
Arguments lru : clear implicits.
