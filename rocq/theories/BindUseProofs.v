(** What follows for functors that were partially applied: when the underlying functor is
    known, when they are partially applied again, and when a parameter is given twice. *)
From Coq Require Import String List Bool Arith Lia Relations.
From Verif Require Import SignatureModel SignatureSpec SignatureProofs FunctorModel FunctorSpec FunctorProofs FunctorCallProofs
  AutoVarModel AutoVarProofs AutoVarTopProofs BindModel BindSpec BindProofs BindTopProofs.
Import ListNotations.
Local Open Scope string_scope.
Local Open Scope nat_scope.
Local Open Scope list_scope.

Lemma override_in {A} (a b : list (string * A)) n : In n (map fst (override a b)) <-> In n (map fst a) \/ In n (map fst b).
Proof.
  rewrite override_names, in_app_iff, filter_In. split; [intros [H|[H _]]; auto|].
  intros [H|H]; auto. destruct (lookup n a) eqn:L; [|auto].
  left. apply lookup_in in L. change n with (fst (n, a0)). apply List.in_map. exact L.
Qed.
Lemma lookup_rel {A B} (R : A -> B -> Prop) (a : list (string * A)) (b : list (string * B)) n :
  Forall2 (fun x y => fst x = fst y /\ R (snd x) (snd y)) a b ->
  match lookup n a, lookup n b with Some x, Some y => R x y | None, None => True | _, _ => False end.
Proof.
  induction 1 as [|[m x] [k y] a b [E H] _ IH]; cbn; [exact Logic.I|]. cbn in E, H. subst k.
  destruct (String.eqb n m); [exact H|exact IH].
Qed.
Lemma override_rel {A B} (R : A -> B -> Prop) (a : list (string * A)) (b : list (string * B)) a' b' :
  Forall2 (fun x y => fst x = fst y /\ R (snd x) (snd y)) a b ->
  Forall2 (fun x y => fst x = fst y /\ R (snd x) (snd y)) a' b' ->
  Forall2 (fun x y => fst x = fst y /\ R (snd x) (snd y)) (override a a') (override b b').
Proof.
  intros H H'. unfold override. apply Forall2_app.
  - pose proof (fun n => lookup_rel R a' b' n H') as L. clear H'. induction H as [|x y a b [E X] _ IH]; cbn; constructor; [|exact IH].
    split; [exact E|]. cbn. rewrite <- E. specialize (L (fst x)). destruct (lookup (fst x) a'), (lookup (fst x) b'); auto; contradiction.
  - pose proof (fun n => lookup_rel R a b n H) as L. clear H. induction H' as [|x y c d [E X] _ IH]; cbn; [constructor|].
    specialize (L (fst x)) as Lx. rewrite <- E. destruct (lookup (fst x) a), (lookup (fst x) b); try contradiction; [exact IH|].
    constructor; [split; [exact E|exact X]|exact IH].
Qed.

Section Use.
Variables (V op bag : Type).
Local Notation slice := (slice V op).
Local Notation functor := (functor V op).
Variable self_default : V.
Variable as_object : list (param V) -> V.
Variable ops : operators op.
Variable op_with_bag : op.
Variable token : V.
Variable eval_op : op -> list (option V) -> option V.
Variable with_bag : bag -> V -> V.
Variable bag_value : bag -> V.
Variable tuple_value : list V -> V.
Variable named_value : list (string * V) -> V.
Variable names_value : list string -> V.
Variable number_value : nat -> V.
Variable text_value : string -> V.
Variable has_type : V -> V -> bool.
Variable apply : V -> V -> list V -> list (string * V) -> option V.
Hypothesis op_with_bag_ok : forall b v, eval_op op_with_bag [Some v; Some (bag_value b)] = Some (with_bag b v).
Hypothesis comp : computes ops token eval_op tuple_value named_value names_value number_value text_value apply.
Local Notation call := (call op_with_bag token eval_op with_bag bag_value tuple_value named_value).
Local Notation create_bind := (create_bind self_default as_object ops names_value).
Local Notation bind_call := (create_bind_call V op bag self_default as_object ops op_with_bag token eval_op with_bag bag_value tuple_value
  named_value names_value number_value text_value apply op_with_bag_ok comp).
Local Notation values b args avs := (Forall2 (fun s x => item_value with_bag b (snd s) x) args avs).
Local Notation named_values b kwargs kvs := (Forall2 (fun s x => fst s = fst x /\ item_value with_bag b (snd (snd s)) (snd x)) kwargs kvs).

Lemma runs_some b fv f rt pos kw v : runs has_type apply (call b) fv f ->
  apply rt fv pos kw = Some v <-> has_type rt v = true /\ call b f (pos ++ map snd kw) (map fst kw) = Ok v.
Proof.
  intros R. rewrite (R rt pos kw). destruct (call b f _ _) as [w|e]; [|split; [discriminate|intros [_ E]; discriminate]].
  destruct (has_type rt w) eqn:E; split; intros H.
  - injection H as ->. auto.
  - destruct H as [_ H]. congruence.
  - discriminate.
  - destruct H as [T H]. congruence.
Qed.

Theorem bound_functor fn rt args kwargs g b fv f avs kvs pos kw v :
  create_bind fn rt args kwargs = Made g -> good_names (length args) (map fst kwargs) ->
  item_value with_bag b (snd fn) fv -> runs has_type apply (call b) fv f -> values b args avs -> named_values b kwargs kvs ->
  call b g (pos ++ map snd kw) (map fst kw) = Ok v <->
  NoDup (map fst kw) /\ has_type rt v = true
  /\ call b f ((avs ++ pos) ++ map snd (override kvs kw)) (map fst (override kvs kw)) = Ok v.
Proof.
  intros M G FV R AV KV. rewrite (bind_call _ _ _ _ _ b _ _ _ pos kw v M G FV AV KV). rewrite (runs_some b fv f _ _ _ _ R). reflexivity.
Qed.

Theorem bound_twice fn rt args kwargs g fn' args' kwargs' g' g2 b fv f gv avs kvs avs' kvs' pos kw v :
  create_bind fn rt args kwargs = Made g -> create_bind fn' rt args' kwargs' = Made g' ->
  create_bind fn rt (args ++ args') (override kwargs kwargs') = Made g2 ->
  good_names (length args) (map fst kwargs) -> good_names (length args') (map fst kwargs') ->
  good_names (length (args ++ args')) (map fst (override kwargs kwargs')) ->
  item_value with_bag b (snd fn) fv -> runs has_type apply (call b) fv f ->
  item_value with_bag b (snd fn') gv -> runs has_type apply (call b) gv g ->
  values b args avs -> named_values b kwargs kvs -> values b args' avs' -> named_values b kwargs' kvs' ->
  call b g' (pos ++ map snd kw) (map fst kw) = Ok v <-> call b g2 (pos ++ map snd kw) (map fst kw) = Ok v.
Proof.
  intros M M' M2 G G' G2 FV R FV' R' AV KV AV' KV'.
  assert (KEYS : forall (k : list (string * slice)) (l : list (string * V)), named_values b k l -> map fst k = map fst l).
  { intros k l H. induction H as [|x y k l [E _] _ IH]; cbn; [reflexivity|f_equal; assumption]. }
  rewrite (bind_call _ _ _ _ _ b _ _ _ pos kw v M' G' FV' AV' KV').
  rewrite (bind_call _ _ _ _ _ b _ _ _ pos kw v M2 G2 FV (Forall2_app AV AV') (override_rel (fun (s : slice) x => item_value with_bag b (snd s) x) _ _ _ _ KV KV')).
  rewrite (runs_some b gv g _ _ _ _ R').
  assert (NV : NoDup (map fst kvs)) by (rewrite <- (KEYS _ _ KV); apply G).
  assert (NV' : NoDup (map fst kvs')) by (rewrite <- (KEYS _ _ KV'); apply G').
  split.
  - intros (ND & _ & C). split; [exact ND|].
    apply (proj1 (bind_call _ _ _ _ _ b _ _ _ (avs' ++ pos) (override kvs' kw) v M G FV AV KV)) in C. destruct C as [_ C].
    rewrite <- app_assoc. rewrite <- (override_assoc V kvs kvs' kw) || rewrite <- (override_assoc kvs kvs' kw); assumption.
  - intros (ND & C). split; [exact ND|]. split; [apply (runs_some b fv f _ _ _ _ R) in C; apply C|].
    apply (bind_call _ _ _ _ _ b _ _ _ (avs' ++ pos) (override kvs' kw) v M G FV AV KV). split; [apply override_nodup; assumption|].
    rewrite <- app_assoc in C. rewrite (override_assoc V kvs kvs' kw) || rewrite (override_assoc kvs kvs' kw); assumption.
Qed.

Theorem bound_clash fn rt args kwargs g b fv f avs kvs pos kw v sv ps i p :
  create_bind fn rt args kwargs = Made g -> good_names (length args) (map fst kwargs) ->
  item_value with_bag b (snd fn) fv -> runs has_type apply (call b) fv f -> values b args avs -> named_values b kwargs kvs ->
  lookup "__signature__" f = Some (SignatureObject sv ps) ->
  at_ ps i p -> by_position p -> by_keyword p -> i < length args + length pos ->
  In (p_name p) (map fst kwargs) \/ In (p_name p) (map fst kw) ->
  call b g (pos ++ map snd kw) (map fst kw) <> Ok v.
Proof.
  intros M G FV R AV KV L A P K I N C.
  apply (bound_functor _ _ _ _ _ b fv f avs kvs pos kw v M G FV R AV KV) in C. destruct C as (_ & _ & C).
  apply (call_iff V op bag op_with_bag token eval_op with_bag bag_value tuple_value named_value op_with_bag_ok) in C.
  destruct C as (sv' & ps' & r & den & _ & L' & _ & _ & _ & _ & B & _). rewrite L in L'. injection L' as <- <-.
  destruct B as (_ & B & _). apply (B i p A P K).
  - rewrite app_length. replace (length avs) with (length args); [exact I|]. clear - AV. induction AV; cbn; congruence.
  - apply override_in. destruct N as [N|N]; [left|auto]. replace (map fst kvs) with (map fst kwargs); [exact N|].
    clear - KV. induction KV as [|x y k l [E _] _ IH]; cbn; [reflexivity|f_equal; assumption].
Qed.
End Use.
