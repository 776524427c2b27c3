(** What a set of allocation ids should be: the ids that were put into it.
    Small allocations are not told apart from each other (by design of the
    class), so the abstract content is the big ids and one "has small" bit. *)
From Coq Require Import NArith List Bool.
From Verif Require Import AllocSetModel.
Import ListNotations.

(** all ids ever inserted *)
Fixpoint inserted (b : build) : list N :=
  match b with
  | BEmpty | BFlag _ => []
  | BOne x => [x]
  | BSpan l => l
  | BInsert b x => x :: inserted b
  | BInsertSmall b => inserted b
  | BUnion b1 b2 => inserted b1 ++ inserted b2
  end.

(** the flag was set explicitly somewhere *)
Fixpoint flagged (b : build) : bool :=
  match b with
  | BEmpty | BOne _ | BSpan _ => false
  | BFlag f => f
  | BInsert b _ => flagged b
  | BInsertSmall _ => true
  | BUnion b1 b2 => flagged b1 || flagged b2
  end.

Definition big_member (b : build) (x : N) : Prop := In x (inserted b) /\ is_small x = false.
Definition has_small (b : build) : Prop :=
  flagged b = true \/ exists x, In x (inserted b) /\ is_small x = true.
