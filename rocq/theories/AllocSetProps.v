(** Property C05: AllocationIdSet is a set. The specification
    ([inserted], [big_member], [has_small]) is in [AllocSetSpec]. *)
From Coq Require Import NArith List Bool.
From Verif Require Import ObjectIdModel AllocSetModel AllocSetSpec AllocSetProofs.
Import ListNotations.
Open Scope N_scope.

(** However a set was built, it can be built (no undefined behaviour), lists
    every big id that was put in exactly once and nothing else, and knows
    whether some small id was put in. *)
Theorem C05_holds_exactly_what_was_inserted : forall b, exists s,
  eval b = Some s /\ NoDup (ids s) /\
  (forall x, In x (ids s) <-> big_member b x) /\ (small s = true <-> has_small b).
Proof. exact eval_full. Qed.
Print Assumptions C05_holds_exactly_what_was_inserted.

(** Insert says "new" exactly when the id was not there. *)
Theorem C05_insert_reports_novelty : forall b s x, eval b = Some s ->
  exists s' r, insert s x = Some (s', r) /\
    (r = true <-> if is_small x then ~ has_small b else ~ big_member b x).
Proof. exact insert_result. Qed.
Print Assumptions C05_insert_reports_novelty.

(** Equality compares contents, whatever the insertion orders. *)
Theorem C05_equality_is_extensional : forall b1 b2 s1 s2,
  eval b1 = Some s1 -> eval b2 = Some s2 ->
  exists r, set_eqb s1 s2 = Some r /\
    (r = true <-> (has_small b1 <-> has_small b2) /\ forall x, big_member b1 x <-> big_member b2 x).
Proof. exact eqb_result. Qed.
Print Assumptions C05_equality_is_extensional.

(** Two insertion orders of 40 big allocations (beyond the sorted limit). *)
Definition some_ids : list N :=
  map (fun i => to_raw_int128 (mkOid 9 10 0 (1024 * N.of_nat i))) (seq 0 40).
Example C05_hypotheses_met :
  let b1 := fold_left BInsert some_ids BEmpty in
  let b2 := BUnion (BSpan (rev (firstn 25 some_ids))) (fold_left BInsert (rev (skipn 20 some_ids)) BEmpty) in
  match eval b1, eval b2 with
  | Some s1, Some s2 =>
      length (ids s1) = 40%nat /\ set_eqb s1 s2 = Some true /\
      list_eqb (ids s1) (ids s2) = true /\
      option_map snd (insert s1 (to_raw_int128 (mkOid 9 10 0 (1024 * 35)))) = Some false /\
      option_map snd (insert s2 (to_raw_int128 (mkOid 9 10 0 (1024 * 45)))) = Some true
  | _, _ => False
  end.
Proof. vm_compute. repeat split. Qed.
