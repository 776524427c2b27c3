(** Proofs about the trampoline executor. *)
From Coq Require Import List Bool Arith Lia Permutation Factorial.
From Verif Require Import TrampolineModel TrampolineSpec.
Import ListNotations.

Section Proofs.
Variables (S E C : Type).
Variable invoke : C -> S -> S * option E * list C.

Lemma fold_push (l st : list C) : fold_left (fun st c => st ++ [c]) l st = st ++ l.
Proof.
  revert st; induction l as [|c l IH]; intros st; cbn [fold_left]; [now rewrite app_nil_r|].
  now rewrite IH, <- app_assoc.
Qed.
Lemma fold_enqueue (cs : list C) (x : executor C) :
  fold_left enqueue cs x = mkExecutor (stack_ x) (buffer_ x ++ cs).
Proof.
  revert x; induction cs as [|c cs IH]; intros x; cbn [fold_left].
  - rewrite app_nil_r; now destruct x.
  - rewrite IH; unfold enqueue; cbn [stack_ buffer_]. now rewrite <- app_assoc.
Qed.

Lemma round_cons c l s s1 st cs : invoke c s = (s1, st, cs) ->
  run_round invoke (mkExecutor (rev (c :: l)) []) s
  = match st with Some e => Failed s1 e | None => Next s1 (mkExecutor (rev (cs ++ l)) []) end.
Proof.
  intros I. unfold run_round, call; cbn [stack_]. rewrite rev_involutive, I, fold_enqueue.
  destruct st as [e|]; [reflexivity|].
  unfold pop_back, flush_buffer; cbn [stack_ buffer_ rev app]. rewrite removelast_last, fold_push.
  now rewrite rev_app_distr.
Qed.

Lemma in_order_app a b s s' st l :
  in_order invoke (a ++ b) s s' st l <->
  (st <> None /\ in_order invoke a s s' st l) \/
  (exists s1 l1 l2, in_order invoke a s s1 None l1 /\ in_order invoke b s1 s' st l2 /\ l = l1 ++ l2).
Proof.
  revert s l; induction a as [|c a IH]; intros s l; cbn [app].
  - split.
    + intros H; right; exists s, [], l; repeat split; [constructor|exact H].
    + intros [[N H]|(s1 & l1 & l2 & H1 & H2 & ->)].
      * inversion H; subst; congruence.
      * inversion H1; subst; exact H2.
  - split.
    + intros H; inversion H as [|? ? ? ? e ? R|? ? ? s1 ? ? l1 l2 R O]; subst.
      * left; split; [discriminate|]. now constructor.
      * apply IH in O. destruct O as [[N O]|(s2 & l3 & l4 & O1 & O2 & ->)].
        -- left; split; [exact N|]. now apply First_ok with s1.
        -- right; exists s2, (l1 ++ l3), l4. split; [now apply First_ok with s1|].
           split; [exact O2|now rewrite app_assoc].
    + intros [[N H]|(s2 & l3 & l4 & H & O2 & ->)].
      * inversion H as [|? ? ? ? e ? R|? ? ? s1 ? ? l1 l2 R O]; subst; [now constructor|].
        apply First_ok with s1; [exact R|]. apply IH; now left.
      * inversion H as [| |? ? ? s1 ? ? l1 l2 R O]; subst.
        rewrite <- app_assoc. apply First_ok with s1; [exact R|].
        apply IH; right; now exists s2, l2, l4.
Qed.

(** One call at a time *)
Lemma in_order_step c l s s1 cs s' st k : invoke c s = (s1, None, cs) ->
  in_order invoke (c :: l) s s' st k <-> exists k', k = (c, cs) :: k' /\ in_order invoke (cs ++ l) s1 s' st k'.
Proof.
  intros I. split.
  - intros H; inversion H as [|? ? ? ? e ? R|? ? ? s2 ? ? l1 l2 R O]; subst.
    + inversion R as [? ? ? ? ? I2|? ? s3 ? ? cs2 k2 I2 O]; subst; [congruence|].
      assert (s3 = s1) by congruence; assert (cs2 = cs) by congruence; subst.
      exists k2; split; [reflexivity|]. apply in_order_app; left; split; [discriminate|exact O].
    + inversion R as [? ? ? ? ? I2|? ? s3 ? ? cs2 k2 I2 O2]; subst.
      assert (s3 = s1) by congruence; assert (cs2 = cs) by congruence; subst.
      exists (k2 ++ l2); split; [reflexivity|]. apply in_order_app; right; now exists s2, k2, l2.
  - intros (k' & -> & O). apply in_order_app in O. destruct O as [[N O]|(s2 & l1 & l2 & O1 & O2 & ->)].
    + destruct st as [e|]; [|congruence]. constructor. now apply Own_part with s1.
    + change ((c, cs) :: l1 ++ l2) with (((c, cs) :: l1) ++ l2).
      apply First_ok with s2; [now apply Own_part with s1|exact O2].
Qed.
Lemma in_order_error c l s s1 cs e s' st k : invoke c s = (s1, Some e, cs) ->
  in_order invoke (c :: l) s s' st k <-> k = [(c, cs)] /\ s' = s1 /\ st = Some e.
Proof.
  intros I. split.
  - intros H; inversion H as [|? ? ? ? e2 ? R|? ? ? s2 ? ? l1 l2 R O]; subst;
      inversion R as [? ? ? ? ? I2|? ? s3 ? ? cs2 k2 I2 O2]; subst; try congruence.
    assert (cs0 = cs) by congruence; subst. repeat split; congruence.
  - intros (-> & -> & ->). constructor. now constructor.
Qed.

Lemma loop_iff fuel l s s' st :
  run_loop invoke fuel (mkExecutor (rev l) []) s = Some (s', st) <->
  exists k, in_order invoke l s s' st k /\ length k <= fuel.
Proof.
  revert l s; induction fuel as [|fuel IH]; intros [|c l] s; cbn [run_loop].
  1, 3: cbn; split;
    [intros [= <- <-]; exists []; split; [constructor|cbn; lia]
    |intros (k & O & _); inversion O; subst; reflexivity].
  - destruct (invoke c s) as [[s1 st1] cs] eqn:I. rewrite (round_cons _ _ _ _ _ _ I).
    destruct st1 as [e|]; (split; [discriminate|]); intros (k & O & L).
    + apply (in_order_error _ _ _ _ _ _ _ _ _ I) in O. destruct O as (-> & _). cbn in L; lia.
    + apply (in_order_step _ _ _ _ _ _ _ _ I) in O. destruct O as (k' & -> & _). cbn in L; lia.
  - destruct (invoke c s) as [[s1 st1] cs] eqn:I. rewrite (round_cons _ _ _ _ _ _ I).
    destruct st1 as [e|].
    + split.
      * intros [= <- <-]. exists [(c, cs)]. split; [|cbn; lia]. now apply (in_order_error _ _ _ _ _ _ _ _ _ I).
      * intros (k & O & L). apply (in_order_error _ _ _ _ _ _ _ _ _ I) in O. now destruct O as (_ & -> & ->).
    + rewrite IH. split.
      * intros (k & O & L). exists ((c, cs) :: k). split; [|cbn; lia].
        apply (in_order_step _ _ _ _ _ _ _ _ I). now exists k.
      * intros (k & O & L). apply (in_order_step _ _ _ _ _ _ _ _ I) in O. destruct O as (k' & -> & O).
        exists k'. split; [exact O|cbn in L; lia].
Qed.

Lemma run_iff fuel root s s' st :
  run invoke fuel root s = Some (s', st) <->
  exists l, recursive invoke root s s' st l /\ length l <= 1 + fuel.
Proof.
  unfold run, call, run_executor. destruct (invoke root s) as [[s1 st1] cs] eqn:I.
  rewrite fold_enqueue; cbn [stack_ buffer_ app]. destruct st1 as [e|].
  - split.
    + intros [= <- <-]. exists [(root, cs)]. split; [now constructor|cbn; lia].
    + intros (l & R & _). inversion R as [? ? ? ? ? I2|? ? s3 ? ? cs2 k2 I2 O2]; subst; congruence.
  - unfold flush_buffer; cbn [stack_ buffer_]. rewrite fold_push; cbn [app]. rewrite loop_iff. split.
    + intros (k & O & L). exists ((root, cs) :: k). split; [now apply Own_part with s1|cbn; lia].
    + intros (l & R & L). inversion R as [? ? ? ? ? I2|? ? s3 ? ? cs2 k2 I2 O2]; subst; [congruence|].
      assert (s3 = s1) by congruence; assert (cs2 = cs) by congruence; subst.
      exists k2; split; [exact O2|cbn in L; lia].
Qed.

Lemma never_iff root s :
  (forall fuel, run invoke fuel root s = None) <-> ~ exists s' st l, recursive invoke root s s' st l.
Proof.
  split.
  - intros N (s' & st & l & R). assert (H : run invoke (length l) root s = Some (s', st))
      by (apply run_iff; exists l; split; [exact R|lia]). rewrite N in H; discriminate.
  - intros N fuel. destruct (run invoke fuel root s) as [[s' st]|] eqn:H; [|reflexivity].
    apply run_iff in H. destruct H as (l & R & _). exfalso; apply N; now exists s', st, l.
Qed.

(** What is known of the calls *)
Lemma success_both :
  (forall c s s' st l, recursive invoke c s s' st l -> st = None -> Permutation (map fst l) (c :: concat (map snd l))) /\
  (forall cs s s' st l, in_order invoke cs s s' st l -> st = None -> Permutation (map fst l) (cs ++ concat (map snd l))).
Proof.
  apply (recursive_both S E C invoke
    (fun c s s' st l _ => st = None -> Permutation (map fst l) (c :: concat (map snd l)))
    (fun cs s s' st l _ => st = None -> Permutation (map fst l) (cs ++ concat (map snd l)))).
  - discriminate.
  - intros c s s1 s2 st cs l I O IH N; cbn. constructor. exact (IH N).
  - intros s _; constructor.
  - discriminate.
  - intros c cs s s1 s2 st l l2 R IR O IO N. rewrite !map_app, concat_app, (IR eq_refl), (IO N). cbn.
    constructor. rewrite !app_assoc. apply Permutation_app_tail. apply Permutation_app_comm.
Qed.
Lemma error_both :
  (forall c s s' st l, recursive invoke c s s' st l -> forall e, st = Some e ->
     exists l1 c1 cs1 s1, l = l1 ++ [(c1, cs1)] /\ invoke c1 s1 = (s', Some e, cs1)) /\
  (forall cs s s' st l, in_order invoke cs s s' st l -> forall e, st = Some e ->
     exists l1 c1 cs1 s1, l = l1 ++ [(c1, cs1)] /\ invoke c1 s1 = (s', Some e, cs1)).
Proof.
  apply (recursive_both S E C invoke
    (fun c s s' st l _ => forall e, st = Some e ->
       exists l1 c1 cs1 s1, l = l1 ++ [(c1, cs1)] /\ invoke c1 s1 = (s', Some e, cs1))
    (fun cs s s' st l _ => forall e, st = Some e ->
       exists l1 c1 cs1 s1, l = l1 ++ [(c1, cs1)] /\ invoke c1 s1 = (s', Some e, cs1))).
  - intros c s s' e cs I e2 [= <-]. exists [], c, cs, s. now split.
  - intros c s s1 s2 st cs l I O IH e N. destruct (IH e N) as (l1 & c1 & cs1 & s0 & -> & H).
    exists ((c, cs) :: l1), c1, cs1, s0. now split.
  - discriminate.
  - intros c cs s s' e l R IH e2 N. exact (IH e2 N).
  - intros c cs s s1 s2 st l l2 R IR O IO e N. destruct (IO e N) as (l1 & c1 & cs1 & s0 & -> & H).
    exists (l ++ l1), c1, cs1, s0. split; [now rewrite app_assoc|exact H].
Qed.
End Proofs.

Section Journal.
Variables (S E C : Type).
Variable invoke : C -> S -> S * option E * list C.

Lemma noted_to :
  (forall c s s' st l, recursive invoke c s s' st l -> forall j, recursive (noted invoke) c (j, s) (j ++ l, s') st l) /\
  (forall cs s s' st l, in_order invoke cs s s' st l -> forall j, in_order (noted invoke) cs (j, s) (j ++ l, s') st l).
Proof.
  apply (recursive_both S E C invoke
    (fun c s s' st l _ => forall j, recursive (noted invoke) c (j, s) (j ++ l, s') st l)
    (fun cs s s' st l _ => forall j, in_order (noted invoke) cs (j, s) (j ++ l, s') st l)).
  - intros c s s' e cs I j. constructor. unfold noted; cbn [fst snd]. now rewrite I.
  - intros c s s1 s2 st cs l I O IH j. apply Own_part with (j ++ [(c, cs)], s1).
    + unfold noted; cbn [fst snd]. now rewrite I.
    + specialize (IH (j ++ [(c, cs)])). now rewrite <- app_assoc in IH.
  - intros s j. rewrite app_nil_r. constructor.
  - intros c cs s s' e l R IH j. constructor. apply IH.
  - intros c cs s s1 s2 st l l2 R IR O IO j. apply First_ok with (j ++ l, s1); [apply IR|].
    rewrite app_assoc. apply IO.
Qed.
Lemma noted_from :
  (forall c x x' st l, recursive (noted invoke) c x x' st l -> recursive invoke c (snd x) (snd x') st l /\ fst x' = fst x ++ l) /\
  (forall cs x x' st l, in_order (noted invoke) cs x x' st l -> in_order invoke cs (snd x) (snd x') st l /\ fst x' = fst x ++ l).
Proof.
  apply (recursive_both _ E C (noted invoke)
    (fun c x x' st l _ => recursive invoke c (snd x) (snd x') st l /\ fst x' = fst x ++ l)
    (fun cs x x' st l _ => in_order invoke cs (snd x) (snd x') st l /\ fst x' = fst x ++ l)).
  - intros c x x' e cs I. unfold noted in I. destruct (invoke c (snd x)) as [[s1 st1] cs1] eqn:I1.
    injection I as <- -> <-. split; [|reflexivity]. constructor. exact I1.
  - intros c x x1 x2 st cs l I O [IH1 IH2]. unfold noted in I.
    destruct (invoke c (snd x)) as [[s1 st1] cs1] eqn:I1. injection I as <- -> <-. cbn [fst snd] in *.
    split; [now apply Own_part with s1|]. now rewrite IH2, <- app_assoc.
  - intros x. split; [constructor|now rewrite app_nil_r].
  - intros c cs x x' e l R [I1 I2]. split; [now constructor|exact I2].
  - intros c cs x x1 x2 st l l2 R [I1 I2] O [I3 I4]. split; [now apply First_ok with (snd x1)|].
    now rewrite I4, I2, app_assoc.
Qed.

Lemma journal_iff fuel root s j s' st :
  run (noted invoke) fuel root ([], s) = Some ((j, s'), st) <->
  recursive invoke root s s' st j /\ length j <= 1 + fuel.
Proof.
  rewrite run_iff. split.
  - intros (l & R & L). apply (proj1 noted_from) in R. cbn [fst snd app] in R. destruct R as [R ->]. now split.
  - intros [R L]. exists j. split; [|exact L]. exact (proj1 noted_to _ _ _ _ _ R []).
Qed.
End Journal.

(** The factorial program *)
Lemma put_length r v mem : length (put r v mem) = length mem.
Proof. revert r; induction mem as [|w mem IH]; intros [|r]; cbn; congruence. Qed.
Lemma nth_put r v mem i : nth i (put r v mem) 0 = if (i =? r) && (r <? length mem) then v else nth i mem 0.
Proof.
  revert r i; induction mem as [|w mem IH]; intros r i.
  - replace (put r v []) with (@nil nat) by (destruct r; reflexivity). cbn [length]. now rewrite andb_false_r.
  - destruct r as [|r], i as [|i]; try reflexivity. cbn [put nth]. rewrite IH.
    reflexivity.
Qed.
Lemma factorial_runs x : forall r mem, r < length mem -> exists mem' l,
  recursive factorial (Compute x r) mem mem' None l /\ length mem <= length mem' /\
  nth r mem' 0 = fact x /\ (forall i, i < length mem -> i <> r -> nth i mem' 0 = nth i mem 0).
Proof.
  induction x as [|x IH]; intros r mem L.
  - exists (put r 1 mem), [(Compute 0 r, [])]. split; [|split; [|split]].
    + apply Own_part with (put r 1 mem); [reflexivity|constructor].
    + now rewrite put_length.
    + rewrite nth_put, Nat.eqb_refl. apply Nat.ltb_lt in L. now rewrite L.
    + intros i Li N. rewrite nth_put. apply Nat.eqb_neq in N. now rewrite N.
  - destruct (IH (length mem) (mem ++ [0])) as (m1 & l1 & R & L1 & V & K); [rewrite app_length; cbn; lia|].
    rewrite app_length in L1; cbn [length] in L1.
    exists (put r (Datatypes.S x * nth (length mem) m1 0) m1).
    eexists. split; [|split; [|split]].
    + eapply Own_part; [reflexivity|]. eapply First_ok; [exact R|].
      eapply First_ok; [|constructor]. eapply Own_part; [reflexivity|constructor].
    + rewrite put_length; lia.
    + rewrite nth_put, Nat.eqb_refl. replace (r <? length m1) with true by (symmetry; apply Nat.ltb_lt; lia).
      cbn [andb]. rewrite V. reflexivity.
    + intros i Li N. rewrite nth_put. apply Nat.eqb_neq in N. rewrite N; cbn [andb].
      rewrite K by (try rewrite app_length; cbn; lia). now rewrite app_nth1.
Qed.
