(** C63: visiting functors calls the callback once for each, subfunctors first. *)
From Coq Require Import List Bool Arith Lia.
From Verif Require Import VisitModel VisitSpec VisitProofs.
Import ListNotations.

Section Properties.
Variables (id name R E : Type).
Variable id_eqb : id -> id -> bool.
Hypothesis id_ok : forall a b, id_eqb a b = true <-> a = b.
Variable variables : id -> list (name * option id).
Variable callback : id -> list (name * R) -> R + E.
Notation visit_functors := (visit_functors id_eqb variables callback).
Notation sub := (sub variables).
Notation reach := (reach variables).
Notation recursive := (recursive variables).
Notation value_of := (value_of variables callback).
Notation subs_of := (subs_of variables callback).

(** The result is the callback of the functor and of the results of its subfunctors, and so on *)
Theorem C63_value : forall n f s r, visit_functors n (Some f) = (s, Done r) -> value_of f r.
Proof.
  intros n f s r H. pose proof (top id name R E id_eqb id_ok variables callback f n) as T. cbn in H. rewrite H in T.
  destruct T as (I & _ & _ & D). exact (i_value _ _ _ _ _ _ _ _ I f r D).
Qed.

(** However it ends, the callback is called at most once for a functor, and with the results of its subfunctors *)
Theorem C63_once : forall n f s o, visit_functors n (Some f) = (s, o) ->
  NoDup (map fst (calls s)) /\ forall g subs, In (g, subs) (calls s) -> subs_of (variables g) subs.
Proof.
  intros n f s o H. pose proof (top id name R E id_eqb id_ok variables callback f n) as T. cbn in H. rewrite H in T.
  destruct T as (I & G & _ & _). split; [|exact (i_calls _ _ _ _ _ _ _ _ I)]. pose proof (i_once _ _ _ _ _ _ _ _ I) as ND.
  destruct o as [r|g|e| |]; cbn in G; unfold even in G; try (now rewrite G).
  - destruct G as [-> _]. exact ND.
  - destruct G as (g & subs & _ & N & _ & _ & ->). apply (NoDup_Add (Add_app g (map fst (visited s)) [])). rewrite app_nil_r. now split.
  - destruct G.
Qed.

(** If it succeeds, it was called for all functors that can be reached and for no others, subfunctors first *)
Theorem C63_all : forall n f s r, visit_functors n (Some f) = (s, Done r) ->
  (forall g, In g (map fst (calls s)) <-> reach f g) /\
  (forall l1 g subs l2, calls s = l1 ++ (g, subs) :: l2 -> forall h, sub g h -> In h (map fst l1)).
Proof.
  intros n f s r H. pose proof (top id name R E id_eqb id_ok variables callback f n) as T. cbn in H. rewrite H in T.
  destruct T as (I & G & _ & D). cbn in G. unfold even in G. split.
  - intros g. rewrite G. split; [|exact (all_reached id name R E variables callback f s r I D g)].
    intros K. apply in_map_iff in K. destruct K as ([g' x] & Q & K). cbn in Q. subst g'. exact (i_reach _ _ _ _ _ _ _ _ I g x K).
  - intros l1 g subs l2 Q h S. rewrite Q, map_app in G. cbn in G. symmetry in G. apply map_eq_app in G.
    destruct G as (k1 & k2 & K & K1 & K2). destruct k2 as [|[g' x] k2]; [discriminate|]. cbn in K2. injection K2 as -> _.
    rewrite <- K1. exact (i_order _ _ _ _ _ _ _ _ I k1 g x k2 K h S).
Qed.

(** It says that a functor is recursive only if there is one, and succeeds only if there is none *)
Theorem C63_recursive : forall n f s o, visit_functors n (Some f) = (s, o) ->
  (forall g, o = Recursive g -> reach f g /\ recursive g) /\
  (forall r, o = Done r -> forall g, reach f g -> ~ recursive g).
Proof.
  intros n f s o H. pose proof (top id name R E id_eqb id_ok variables callback f n) as T. cbn in H. rewrite H in T.
  destruct T as (I & G & _ & D). split.
  - intros g ->. exact (proj2 G).
  - intros r -> g K. apply (visited_not_recursive id name R E variables callback f s g I).
    exact (all_reached id name R E variables callback f s r I D g K).
Qed.

(** An error is that of the callback for a functor that can be reached; it was the last call *)
Theorem C63_failed : forall n f s e, visit_functors n (Some f) = (s, Failed e) ->
  exists g subs, reach f g /\ subs_of (variables g) subs /\ callback g subs = inr e /\ last (map fst (calls s)) f = g.
Proof.
  intros n f s e H. pose proof (top id name R E id_eqb id_ok variables callback f n) as T. cbn in H. rewrite H in T.
  destruct T as (_ & (g & subs & A & _ & B & C & Q) & _). exists g, subs. rewrite Q, last_last. auto.
Qed.

(** It ends, if the functors that can be reached are finitely many; and it then succeeds if and only if none
    of them is recursive, unless the callback fails *)
Theorem C63_ends : forall f all, (forall g, reach f g -> In g all) -> forall n, length all < n ->
  exists s o, visit_functors n (Some f) = (s, o) /\ o <> Out_of_fuel /\ o <> Not_a_functor /\
  ((forall g subs e, callback g subs <> inr e) -> ((exists r, o = Done r) <-> forall g, reach f g -> ~ recursive g)).
Proof.
  intros f all U n L. pose proof (top id name R E id_eqb id_ok variables callback f n) as T.
  destruct (visit_functors n (Some f)) as [s o] eqn:H. pose proof (C63_recursive n f s o H) as [C1 C2]. cbn in H. rewrite H in T.
  destruct T as (_ & G & F & _). exists s, o. split; [reflexivity|]. assert (N : o <> Out_of_fuel) by (apply (F all U); cbn; lia).
  split; [exact N|]. split; [intros ->; exact G|]. intros CB. split.
  - intros (r & ->). exact (C2 r eq_refl).
  - intros NR. destruct o as [r|g|e| |]; [now exists r| | |congruence|destruct G].
    + destruct (C1 g eq_refl) as [A B]. now destruct (NR g A).
    + destruct G as (g & subs & _ & _ & _ & C & _). now destruct (CB g subs e).
Qed.

(** What is not a functor is refused before any call *)
Theorem C63_refuses : forall n s o, visit_functors n None = (s, o) -> o = Not_a_functor /\ calls s = [].
Proof. intros n s o H. cbn in H. injection H as <- <-. now split. Qed.
End Properties.
Print Assumptions C63_value.
Print Assumptions C63_once.
Print Assumptions C63_all.
Print Assumptions C63_recursive.
Print Assumptions C63_failed.
Print Assumptions C63_ends.
Print Assumptions C63_refuses.

(** Functor 1 has 2 and 3 and a variable that holds none, 2 and 3 share 4; 5 and 6 have each other.
    The callback adds up the results, and fails at 7 *)
Definition ex_variables (f : nat) : list (nat * option nat) :=
  match f with
  | 1 => [(0, Some 2); (1, None); (2, Some 3)]
  | 2 | 3 => [(0, Some 4)]
  | 5 => [(0, Some 2); (1, Some 6)]
  | 6 => [(0, Some 5)]
  | 8 => [(0, Some 4); (1, Some 7)]
  | _ => []
  end.
Definition ex_callback (f : nat) (subs : list (nat * nat)) : nat + nat :=
  if f =? 7 then inr 77 else inl (fold_right (fun x a => snd x + a) f subs).
Notation ex_visit := (visit_functors Nat.eqb ex_variables ex_callback 9).
Example C63_hypotheses_met :
  (forall a b, (a =? b) = true <-> a = b) /\
  ex_visit (Some 1) = (State [(4, 4); (2, 6); (3, 7); (1, 14)] [(4, []); (2, [(0, 4)]); (3, [(0, 4)]); (1, [(0, 6); (2, 7)])], Done 14) /\
  ex_visit (Some 5) = (State [(4, 4); (2, 6)] [(4, []); (2, [(0, 4)])], Recursive 5) /\
  ex_visit (Some 8) = (State [(4, 4)] [(4, []); (7, [])], Failed 77) /\
  (forall g, reach ex_variables 1 g -> In g [1; 2; 3; 4]) /\
  recursive ex_variables 5.
Proof.
  split; [exact Nat.eqb_eq|]. split; [reflexivity|]. split; [reflexivity|]. split; [reflexivity|]. split.
  - intros g H. induction H as [|g h _ IH S]; [now left|]. destruct S as (x & X). cbn in IH |- *.
    destruct IH as [<-|[<-|[<-|[<-|[]]]]]; cbn in X; intuition congruence.
  - exists 6. split; [exists 1; cbn; auto|]. apply (reach_step _ _ _ 6 6); [constructor|]. exists 0. cbn. auto.
Qed.
Print Assumptions C63_hypotheses_met.
