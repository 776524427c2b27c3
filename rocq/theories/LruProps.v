(** Properties C06, C07: the size tracking LRU cache. *)
From Coq Require Import ZArith NArith List Bool.
From Verif Require Import LruModel LruSpec LruProofs.
Import ListNotations.
Open Scope Z_scope.

(** ** C06: after any history the total is exact and within the budget, and no
    key is held twice. *)
Theorem C06_exact_accounting_within_budget : forall V m (c0 : cache V) h,
  create m = Some c0 -> Forall sizes_ok h ->
  let c := fst (run c0 h) in
  NoDup (map ekey (dict c)) /\ total c = fold_right Z.add 0 (map esize (dict c)) /\
  0 <= total c <= max_total c.
Proof. exact (fun V => accounting). Qed.
Print Assumptions C06_exact_accounting_within_budget.

(** With negative sizes the claim would be false (sizes are byte counts in
    every caller). *)
Theorem C06_negative_sizes_refuted : exists (c0 : cache N) h,
  create 100 = Some c0 /\ max_total (fst (run c0 h)) < total (fst (run c0 h)).
Proof.
  exists (mkCache 100 [] 0), [OSet 1%N 1%N 100; OSet 2%N 2%N (-50); OSet 3%N 3%N 50; ORemove 2%N].
  vm_compute. auto.
Qed.
Print Assumptions C06_negative_sizes_refuted.

(** ** C07: every answer is that of the textbook LRU cache [spec_step] *)
Theorem C07_answers_as_textbook_lru : forall V m (c0 : cache V) h,
  create m = Some c0 -> Forall sizes_ok h ->
  snd (run c0 h) = snd (spec_run (mkLru m []) h).
Proof. exact (fun V => refinement). Qed.
Print Assumptions C07_answers_as_textbook_lru.

(** A read that hits returns what the latest write to that key handed back. *)
Theorem C07_read_returns_latest_written : forall V m (c0 : cache V) h k v,
  create m = Some c0 -> Forall sizes_ok h ->
  snd (step (fst (run c0 h)) (OGet k)) = RValue (Some v) ->
  last_answer k h (snd (run c0 h)) None = Some v.
Proof. exact (fun V => read_is_last_answer). Qed.
Print Assumptions C07_read_returns_latest_written.

(** A write never evicts an entry while keeping one used less recently. *)
Theorem C07_evicts_least_recently_used_first : forall V m (c0 : cache V) h o a b,
  create m = Some c0 -> Forall sizes_ok h -> sizes_ok o ->
  match o with OSet _ _ _ | OSetMax _ | OGet _ => True | _ => False end ->
  let c := fst (run c0 h) in let c' := fst (step c o) in
  held c a -> held c b -> (last_use a h < last_use b h)%nat -> ~ held c' b -> ~ held c' a.
Proof. exact (fun V => evict_lru_only). Qed.
Print Assumptions C07_evicts_least_recently_used_first.

(** The entries are kept in the order of their last use. *)
Theorem C07_order_is_recency : forall V m (c0 : cache V) h,
  create m = Some c0 -> Forall sizes_ok h ->
  forall i j a b, (i < j)%nat ->
  nth_error (dict (fst (run c0 h))) i = Some a -> nth_error (dict (fst (run c0 h))) j = Some b ->
  (last_use (ekey a) h < last_use (ekey b) h)%nat.
Proof. exact (fun V => order_is_recency). Qed.
Print Assumptions C07_order_is_recency.

Example C06_C07_hypotheses_met :
  let h := [OSet 1 10 40; OSet 2 20 40; OGet 1; OSet 3 30 30; OGet 2; OGet 1; OSet 1 11 5; OTotal;
            OSetMax 35; OGet 1; OGet 3; OTotal]%N in
  Forall (@sizes_ok N) h /\
  exists c0, create 100 = Some c0 /\
    snd (run c0 h) = [RValue (Some 10%N); RValue (Some 20%N); RValue (Some 10%N); RValue (Some 30%N);
                      RValue None; RValue (Some 10%N); RValue (Some 10%N); RInt 70; RUnit; RValue None;
                      RValue None; RInt 0].
Proof.
  split; [repeat constructor; cbn; discriminate|].
  exists (mkCache 100 [] 0). split; vm_compute; reflexivity.
Qed.
