(** What grouping by keys and removing duplicates are supposed to return. Nothing here refers
    to group ids, hash maps or counting. *)
From Coq Require Import List Bool Arith Permutation Sorted.
Import ListNotations.

Section Spec.
Variable T : Type.
(** equality and order of values; NaN is equal to nothing *)
Variables eqb ltb : T -> T -> bool.

Definition partial_equivalence : Prop :=
  (forall a b, eqb a b = true -> eqb b a = true) /\
  (forall a b c, eqb a b = true -> eqb b c = true -> eqb a c = true).
(** a total order up to [eqb] *)
Definition total_order_on (P : T -> Prop) : Prop :=
  (forall a, P a -> eqb a a = true) /\
  (forall a b c, P a -> P b -> P c -> ltb a b = true -> ltb b c = true -> ltb a c = true) /\
  (forall a b, P a -> P b -> ltb a b = true -> eqb a b = false /\ ltb b a = false) /\
  (forall a b, P a -> P b -> eqb a b = true \/ ltb a b = true \/ ltb b a = true).

(** ** Groups of a row
    A row has one column of items for each key. *)
Definition column := list (option T).
Definition has_keys (cols : list column) (i : nat) : Prop :=
  forall c, In c cols -> exists v, nth_error c i = Some (Some v).
Definition same_keys (cols : list column) (i j : nat) : Prop :=
  forall c, In c cols -> exists v w,
    nth_error c i = Some (Some v) /\ nth_error c j = Some (Some w) /\ eqb v w = true.
(** lexicographic *)
Fixpoint keys_less (cols : list column) (i j : nat) : Prop :=
  match cols with
  | [] => False
  | c :: cols => exists v w, nth_error c i = Some (Some v) /\ nth_error c j = Some (Some w) /\
                             (ltb v w = true \/ (eqb v w = true /\ keys_less cols i j))
  end.

(** a group comes before another: by the keys, or by the first item *)
Definition before (sort : bool) (cols : list column) (g h : list nat) : Prop :=
  if sort then forall i j, In i g -> In j h -> keys_less cols i j
  else forall j, In j h -> exists i, In i g /\ i < j.

(** [gs] are the groups of a row of [n] items, as positions in the row *)
Definition row_groups (sort : bool) (cols : list column) (n : nat) (gs : list (list nat)) : Prop :=
  (* exactly the items with all keys, each once *)
  (forall i, In i (concat gs) <-> i < n /\ has_keys cols i) /\
  NoDup (concat gs) /\
  (* no empty groups; the order of the items is kept *)
  (forall g, In g gs -> g <> [] /\ StronglySorted lt g) /\
  (* a group has the items with the same keys *)
  (forall g i j, In g gs -> In i g -> (In j g <-> j = i \/ same_keys cols i j)) /\
  ForallOrdPairs (before sort cols) gs.

(** ** The different values of a row *)
Variable nan : T -> Prop.
Definition same_value (a b : T) : Prop := eqb a b = true \/ (nan a /\ nan b).
(** [u] are the first occurrences of the values of a row *)
Definition first_occurrences (row : list (option T)) (u : list T) : Prop :=
  exists ps, StronglySorted lt ps /\
    (forall i, In i ps <-> exists v, nth_error row i = Some (Some v) /\
                                     forall j w, j < i -> nth_error row j = Some (Some w) -> ~ same_value w v) /\
    Forall2 (fun i v => nth_error row i = Some (Some v)) ps u.
(** ascending, the NaN last *)
Definition ascending (u : list T) : Prop :=
  StronglySorted (fun a b => ltb a b = true /\ ~ nan a /\ ~ nan b \/ (~ nan a /\ nan b)) u.
Definition row_unique (sort : bool) (row : list (option T)) (u : list T) : Prop :=
  if sort then ascending u /\ exists u', first_occurrences row u' /\ Permutation u u'
  else first_occurrences row u.
End Spec.
