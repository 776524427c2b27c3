(** Model of py/koladata/ext/storage/lru_size_tracking_cache.py. A Python dict
    with insertion order is an association list, oldest insertion first. Every
    public method holds the re-entrant lock for its whole body, so a concurrent
    execution is a sequence of whole operations. Sizes are Python ints (Z). *)
From Coq Require Import ZArith List Bool.
Import ListNotations.
Open Scope Z_scope.

Section Lru.
Context {V : Type}.

(** lru_size_tracking_cache.py:22-31: value and num_bytes_estimate *)
Definition entry : Type := (N * (V * Z))%type.
Definition ekey (e : entry) : N := fst e.
Definition evalue (e : entry) : V := fst (snd e).
Definition esize (e : entry) : Z := snd (snd e).

(** :59-66 *)
Record cache := mkCache {
  max_total : Z;
  dict : list entry;
  total : Z
}.

(** Python dict primitives *)
Definition dict_get (k : N) (d : list entry) : option entry :=
  find (fun e => N.eqb (ekey e) k) d.
(** dict.pop(key) without the key present raises KeyError: [None] *)
Definition dict_pop (k : N) (d : list entry) : option (entry * list entry) :=
  match dict_get k d with
  | None => None
  | Some e => Some (e, filter (fun e => negb (N.eqb (ekey e) k)) d)
  end.
(** d[key] = v: keeps the position of an existing key, else appends *)
Definition dict_set (k : N) (x : V * Z) (d : list entry) : list entry :=
  match dict_get k d with
  | None => d ++ [(k, x)]
  | Some _ => map (fun e => if N.eqb (ekey e) k then (k, x) else e) d
  end.

(** :68-91 __init__; [None] is the ValueError *)
Definition create (m : Z) : option cache :=
  if m <? 0 then None else Some (mkCache m [] 0).

(** :93-102 get; the answer [None] is the default *)
Definition get (c : cache) (k : N) : cache * option V :=
  match dict_pop k (dict c) with
  | None => (c, None)
  | Some (e, d) => (mkCache (max_total c) (dict_set k (snd e) d) (total c), Some (evalue e))
  end.

(** :225-232 the eviction loop over the items listed old to new *)
Fixpoint shrink_loop (limit : Z) (items : list entry) (c : cache) : cache :=
  match items with
  | [] => c
  | e :: items' =>
    if total c <=? limit then c
    else
      let d := match dict_pop (ekey e) (dict c) with Some (_, d) => d | None => dict c end in
      shrink_loop limit items' (mkCache (max_total c) d (total c - esize e))
  end.
(** :215-232 _shrink_cache_to_at_most *)
Definition shrink (limit : Z) (c : cache) : cache :=
  if total c <=? limit then c else shrink_loop limit (dict c) c.

(** :104-171 set *)
Definition set (c : cache) (k : N) (v : V) (n : Z) : cache * V :=
  let '(c, existing) := get c k in
  match existing with
  | Some v' => (c, v')
  | None =>
    if max_total c <? n then (c, v)
    else
      let c := shrink (max_total c - n) c in
      (mkCache (max_total c) (dict_set k (v, n) (dict c)) (total c + n), v)
  end.

(** :173-182 remove *)
Definition remove (c : cache) (k : N) : cache :=
  match dict_pop k (dict c) with
  | None => c
  | Some (e, d) => mkCache (max_total c) d (total c - esize e)
  end.

(** :194-207 set_max_total_bytes_of_entries_in_cache; ValueError leaves the
    cache as it was and is reported by [false] *)
Definition set_max (c : cache) (m : Z) : cache * bool :=
  if m <? 0 then (c, false)
  else let c := shrink m c in (mkCache m (dict c) (total c), true).

(** :209-213 clear *)
Definition clear (c : cache) : cache := mkCache (max_total c) [] 0.

Inductive op :=
| OGet (k : N)
| OSet (k : N) (v : V) (n : Z)
| ORemove (k : N)
| OSetMax (m : Z)
| OClear
| OTotal
| OMax.
Inductive out :=
| RValue (v : option V)
| RUnit
| RError
| RInt (z : Z).

Definition step (c : cache) (o : op) : cache * out :=
  match o with
  | OGet k => let '(c, v) := get c k in (c, RValue v)
  | OSet k v n => let '(c, v) := set c k v n in (c, RValue (Some v))
  | ORemove k => (remove c k, RUnit)
  | OSetMax m => let '(c, ok) := set_max c m in (c, if ok then RUnit else RError)
  | OClear => (clear c, RUnit)
  | OTotal => (c, RInt (total c))
  | OMax => (c, RInt (max_total c))
  end.

Fixpoint run (c : cache) (ops : list op) : cache * list out :=
  match ops with
  | [] => (c, [])
  | o :: ops' => let '(c1, r) := step c o in
                 let '(c2, rs) := run c1 ops' in (c2, r :: rs)
  end.
End Lru.
Arguments cache : clear implicits.
Arguments op : clear implicits.
Arguments out : clear implicits.
Arguments entry : clear implicits.
