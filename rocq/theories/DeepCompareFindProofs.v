From Coq Require Import String List Bool Arith NArith ZArith Lia Permutation.
From Verif Require Import DeepCompareModel DeepCompareStepProofs.
Import ListNotations.
Local Open Scope string_scope.
Local Open Scope nat_scope.
Local Open Scope list_scope.

(** * The search for the differences in the result *)
Section Find.
Variable order : list edge -> list edge.
Variable st : state.
Variable max_count : nat.
Variable roots : list (key * rnode).
Notation children := (children order st).

Inductive rpath : list key -> rnode -> Prop :=
| rp_root k n : In (k, n) roots -> visited_once n = true -> rpath [k] n
| rp_step path tk m k c : rpath path (RTok tk m) -> In (k, c) (children (RTok tk m)) -> visited_once c = true ->
    rpath (path ++ [k]) c.

Notation entry := (rnode * key * bool)%type.
Fixpoint pkeys (s : list entry) : list key :=
  match s with [] => [] | (_, k, true) :: s => k :: pkeys s | _ :: s => pkeys s end.
Fixpoint open_count (s : list entry) : nat :=
  match s with [] => 0 | (_, _, false) :: s => S (open_count s) | _ :: s => open_count s end.
Fixpoint stack_ok (s : list entry) : Prop :=
  match s with [] => True | (n, k, _) :: s => rpath (rev (pkeys s) ++ [k]) n /\ stack_ok s end.
Definition top_open (s : list entry) : Prop := match s with (_, _, true) :: _ => False | _ => True end.
Definition handled (f : fstate) (n : rnode) : Prop :=
  match n with
  | RVal _ => True
  | RDiff _ d => max_count <= length (f_found f) \/ exists path, In (path, d) (f_found f) /\ rpath path n
  | RTok _ _ => forall k c, In (k, c) (children n) -> visited_once c = true -> In c (f_used f)
  end.
Record finv (f : fstate) : Prop := {
  fi_access : f_access f = pkeys (f_stack f);
  fi_stack : stack_ok (f_stack f);
  fi_found : forall path d, In (path, d) (f_found f) -> exists n, rpath path (RDiff n d);
  fi_count : length (f_found f) <= max_count }.
(** [busy]: the item whose children are being added *)
Record uinv (f : fstate) (busy : option rnode) : Prop := {
  ui_used : forall n, In n (f_used f) -> busy = Some n \/ (exists k, In (n, k, false) (f_stack f)) \/ handled f n;
  ui_nodup : NoDup (f_used f);
  ui_reached : forall n, In n (f_used f) -> exists path, rpath path n }.

Lemma handled_mono f f' n : incl (f_used f) (f_used f') -> incl (f_found f) (f_found f') ->
  length (f_found f) <= length (f_found f') -> handled f n -> handled f' n.
Proof.
  intros U F L. destruct n; cbn; auto.
  - intros H k0 c X V. apply U. eauto.
  - intros [H|(path & A & B)]; [left; lia|right; exists path; auto].
Qed.

Lemma previsit_facts f c : f_access (previsit f c) = f_access f /\ f_found (previsit f c) = f_found f /\
  pkeys (f_stack (previsit f c)) = pkeys (f_stack f) /\ incl (f_used f) (f_used (previsit f c)) /\
  (visited_once (snd c) = true -> In (snd c) (f_used (previsit f c))).
Proof.
  destruct c as [k n]. unfold previsit. cbn [snd]. destruct (visited_once n) eqn:V.
  - destruct (in_dec rnode_eq_dec n (f_used f)); cbn; repeat split; auto using incl_refl. intros x X. right. exact X.
  - repeat split; auto using incl_refl. discriminate.
Qed.

Lemma previsit_inv f busy k n : finv f -> uinv f busy ->
  (visited_once n = true -> rpath (rev (f_access f) ++ [k]) n) ->
  finv (previsit f (k, n)) /\ uinv (previsit f (k, n)) busy.
Proof.
  intros I U R. pose proof (previsit_facts f (k, n)) as (A & F & P & _ & _). revert A F P. unfold previsit.
  destruct (visited_once n) eqn:V; [|auto]. destruct (in_dec rnode_eq_dec n (f_used f)) as [D|D]; [auto|]. intros _ _ _.
  destruct I as [Ia Is If Ic], U as [Uu Un Ur]. split; constructor; cbn [f_access f_stack f_used f_found pkeys stack_ok]; auto.
  - split; auto. rewrite <- Ia. auto.
  - intros x [<-|X].
    + right. left. exists k. left. reflexivity.
    + destruct (Uu x X) as [H|[[k' H]|H]]; auto.
      * right. left. exists k'. right. exact H.
      * right. right. eapply handled_mono; [| | |exact H]; cbn; auto using incl_refl. intros y Y. right. exact Y.
  - constructor; auto.
  - intros x [<-|X]; auto. eexists. apply R. reflexivity.
Qed.

Lemma previsit_all cs : forall f busy, finv f -> uinv f busy ->
  (forall k n, In (k, n) cs -> visited_once n = true -> rpath (rev (f_access f) ++ [k]) n) ->
  let f' := fold_left previsit cs f in
  finv f' /\ uinv f' busy /\ f_access f' = f_access f /\ f_found f' = f_found f /\ incl (f_used f) (f_used f') /\
  (forall k n, In (k, n) cs -> visited_once n = true -> In n (f_used f')).
Proof.
  induction cs as [|[k n] cs IH]; intros f busy I U R; cbn [fold_left].
  { split; [auto|]. split; [auto|]. repeat split; auto using incl_refl. intros ? ? []. }
  destruct (previsit_inv f busy k n I U) as [I1 U1]; [intros V; apply R; [left; reflexivity|exact V]|].
  pose proof (previsit_facts f (k, n)) as (A & F & P & IU & IN).
  destruct (IH (previsit f (k, n)) busy I1 U1) as (I2 & U2 & A2 & F2 & IU2 & IN2).
  { rewrite A. intros k' n' X V. apply R; auto. right. exact X. }
  split; [exact I2|]. split; [exact U2|]. split; [congruence|]. split; [congruence|]. split; [eapply incl_tran; eauto|].
  intros k' n' [X|X] V; [|eauto]. apply IU2. assert (n' = n) by congruence. subst. apply IN. exact V.
Qed.

Lemma pop_facts s : forall a, a = pkeys s -> stack_ok s ->
  let s' := fst (pop_done s a) in let a' := snd (pop_done s a) in
  a' = pkeys s' /\ stack_ok s' /\ (forall n k, In (n, k, false) s -> In (n, k, false) s') /\ open_count s' = open_count s /\
  top_open (s').
Proof.
  induction s as [|[[n k] b] s IH]; intros a E S; cbn; [auto|]. destruct b; cbn [pkeys] in E.
  - destruct S as [_ S]. destruct (IH (tl a)) as (A & B & C & D & F); [subst; auto|auto|].
    split; [exact A|]. split; [exact B|]. split; [|auto]. intros n' k' [X|X]; [congruence|auto].
  - cbn. destruct S as [S1 S2]. repeat split; auto.
Qed.

Lemma process_inv f f' : finv f -> uinv f None -> top_open (f_stack f) ->
  process order st max_count f = Ok f' ->
  finv f' /\ uinv f' None /\ top_open (f_stack f') /\ incl (f_used f) (f_used f').
Proof.
  intros I U T P. unfold process in P. destruct (f_stack f) as [|[[n k] b] rest] eqn:ES.
  { assert (f' = f) by congruence. subst. rewrite ES. auto using incl_refl. }
  destruct b; [contradiction|].
  set (f1 := mkF ((n, k, true) :: rest) (k :: f_access f) (f_used f) (f_found f)) in *.
  destruct I as [Ia Is If Ic]. rewrite ES in Ia, Is. cbn [pkeys stack_ok] in Ia, Is. destruct Is as [Is1 Is2].
  assert (I1 : finv f1).
  { constructor; cbn [f1 f_access f_stack f_used f_found pkeys stack_ok]; auto; congruence. }
  assert (U1 : uinv f1 (Some n)).
  { destruct U as [Uu Un Ur]. constructor; auto. cbn [f1 f_used f_stack]. intros x X.
    destruct (Uu x X) as [H|[[k' H]|H]]; [discriminate| |right; right; exact H].
    rewrite ES in H. destruct H as [H|H]; [left; congruence|]. right. left. exists k'. right. exact H. }
  assert (RP : rpath (rev (f_access f1)) n) by (cbn [f1 f_access rev]; rewrite Ia; exact Is1).
  inv_bind P.
  assert (G : finv a /\ uinv a None /\ incl (f_used f) (f_used a)).
  { destruct n as [x|tk m|m d].
    - destruct (in_dec item_eq_dec x (s_marked st)); [|discriminate]. assert (a = f1) by congruence. subst a. clear E.
      split; [exact I1|]. split; [|apply incl_refl]. destruct U1 as [Uu Un Ur]. constructor; auto.
      intros y Y. destruct (Uu y Y) as [H|H]; auto. right. right. assert (y = RVal x) by congruence. subst y. exact Logic.I.
    - assert (EA : a = fold_left previsit (children (RTok tk m)) f1) by congruence. clear E.
      destruct (previsit_all (children (RTok tk m)) f1 (Some (RTok tk m)) I1 U1) as (I2 & U2 & A2 & F2 & IU & IN).
      { intros k' c X V. eapply rp_step; eauto. }
      rewrite <- EA in *. split; [exact I2|]. split; [|exact IU]. destruct U2 as [Uu Un Ur]. constructor; auto.
      intros y Y. destruct (Uu y Y) as [H|H]; auto. right. right. assert (y = RTok tk m) by congruence. subst y. cbn. exact IN.
    - destruct (Nat.ltb_spec (length (f_found f1)) max_count) as [L|L].
      + match type of E with Ok ?x = _ => assert (a = x) by congruence end. subst a. clear E. split; [|split; [|apply incl_refl]].
        * constructor; cbn [f_access f_stack f_used f_found]; try apply I1.
          -- intros path d' X. apply in_app_iff in X. destruct X as [X|[X|[]]]; [apply If; exact X|].
             assert (path = rev (f_access f1)) by congruence. assert (d' = d) by congruence. subst. eauto.
          -- rewrite app_length. change (length [(rev (f_access f1), d)]) with 1. lia.
        * destruct U1 as [Uu Un Ur]. constructor; auto. cbn [f_used]. intros y Y. destruct (Uu y Y) as [H|[H|H]]; auto.
          -- right. right. assert (y = RDiff m d) by congruence. subst y. right. exists (rev (f_access f1)).
             cbn [f_found]. split; [|exact RP]. apply in_app_iff. right. left. reflexivity.
          -- right. right. eapply handled_mono; [| | |exact H]; cbn [f_used f_found]; auto using incl_refl.
             ++ intros z Z. apply in_app_iff. auto.
             ++ rewrite app_length. lia.
      + assert (a = f1) by congruence. subst a. clear E. split; [exact I1|]. split; [|apply incl_refl].
        destruct U1 as [Uu Un Ur]. constructor; auto. intros y Y. destruct (Uu y Y) as [H|H]; auto. right. right.
        assert (y = RDiff m d) by congruence. subst y. left. exact L. }
  destruct G as (Ga & Gu & Gi). destruct (pop_done (f_stack a) (f_access a)) as [s' a'] eqn:PD.
  assert (f' = mkF s' a' (f_used a) (f_found a)) by congruence. subst f'. clear P.
  destruct (pop_facts (f_stack a) (f_access a) (fi_access _ Ga) (fi_stack _ Ga)) as (A & B & C & D & F). rewrite PD in A, B, C, D, F.
  cbn [fst snd] in A, B, C, D, F. destruct Ga as [Ga1 Ga2 Ga3 Ga4]. cbn [f_stack f_used].
  split; [constructor; auto|]. split; [|auto]. destruct Gu as [Uu Un Ur]. constructor; auto. cbn [f_used f_stack].
  intros y Y. destruct (Uu y Y) as [H|[[k' H]|H]]; auto. right. left. exists k'. auto.
Qed.

Lemma loop_inv fuel : forall f f', finv f -> uinv f None -> top_open (f_stack f) ->
  find_loop order st max_count fuel f = Some (Ok f') ->
  finv f' /\ uinv f' None /\ f_stack f' = [] /\ incl (f_used f) (f_used f').
Proof.
  induction fuel as [|fuel IH]; intros f f' I U T H; cbn in H.
  - destruct (f_stack f) eqn:E; [|discriminate]. assert (f' = f) by congruence. subst. auto using incl_refl.
  - destruct (f_stack f) eqn:E. { assert (f' = f) by congruence. subst. auto using incl_refl. }
    destruct (process order st max_count f) as [f1|] eqn:P; [|discriminate]. rewrite <- E in T.
    destruct (process_inv _ _ I U T P) as (I1 & U1 & T1 & IU). destruct (IH _ _ I1 U1 T1 H) as (I2 & U2 & E2 & IU2).
    split; [auto|]. split; [auto|]. split; [auto|]. eapply incl_tran; eauto.
Qed.

Lemma start_inv : let f := fold_left previsit roots (mkF [] [] [] []) in
  finv f /\ uinv f None /\ top_open (f_stack f) /\
  (forall k n, In (k, n) roots -> visited_once n = true -> In n (f_used f)).
Proof.
  cbv zeta.
  assert (I : finv (mkF [] [] [] [])) by (constructor; cbn; auto; [intros ? ? []|lia]).
  assert (U : uinv (mkF [] [] [] []) None) by (constructor; cbn; [intros ? []|constructor|intros ? []]).
  destruct (previsit_all roots _ None I U) as (A & B & C & D & E & F).
  { cbn. intros k n X V. apply rp_root; auto. }
  split; [exact A|]. split; [exact B|]. split; [|exact F].
  assert (G : forall cs f, top_open (f_stack f) ->
              top_open (f_stack (fold_left previsit cs f))).
  { induction cs as [|[k n] cs IH]; intros f X; cbn [fold_left]; [exact X|]. apply IH. unfold previsit.
    destruct (visited_once n); auto. destruct (in_dec rnode_eq_dec n (f_used f)); auto. exact Logic.I. }
  apply G. exact Logic.I.
Qed.

(** What is found is there, and what is there is found *)
Lemma find_ok fuel found : find_diffs order st max_count fuel roots = Some (Ok found) ->
  (forall path d, In (path, d) found -> exists n, rpath path (RDiff n d)) /\ length found <= max_count /\
  (length found < max_count -> forall path n d, rpath path (RDiff n d) ->
     exists path', In (path', d) found /\ rpath path' (RDiff n d)).
Proof.
  unfold find_diffs. destruct start_inv as (I & U & T & R).
  destruct (find_loop order st max_count fuel (fold_left previsit roots (mkF [] [] [] []))) as [[f|]|] eqn:L; try discriminate.
  intros E. assert (found = f_found f) by congruence. subst found. clear E.
  destruct (loop_inv _ _ _ I U T L) as (I' & U' & S & IU).
  split; [apply (fi_found _ I')|]. split; [apply (fi_count _ I')|]. intros LT.
  assert (H : forall n, In n (f_used f) -> handled f n).
  { intros n X. destruct (ui_used _ _ U' n X) as [Q|[[k Q]|Q]]; auto; [discriminate|rewrite S in Q; contradiction]. }
  assert (A : forall path n, rpath path n -> In n (f_used f)).
  { intros path n RP. induction RP as [k n X V|path tk m k c RP IH X V].
    - apply IU. eapply R; eauto.
    - apply (H _ IH k c X V). }
  intros path n d RP. destruct (H _ (A _ _ RP)) as [Q|Q]; [lia|exact Q].
Qed.

(** ** The search ends *)
Definition universe : list rnode := map snd roots ++ map e_to (s_edges st) ++
  flat_map (fun e => match e_key e with KDictValue _ v => [RVal v] | _ => [] end) (s_edges st).
Hypothesis perm : forall l, Permutation l (order l).

Lemma children_in n k c : In (k, c) (children n) -> In c universe.
Proof.
  unfold DeepCompareModel.children. rewrite in_flat_map. intros (e & E & C).
  assert (IN : In e (s_edges st)).
  { apply (Permutation_in e (Permutation_sym (perm _))) in E. apply filter_In in E. tauto. }
  unfold universe. rewrite !in_app_iff, in_flat_map.
  assert (T : In (e_to e) (map e_to (s_edges st))) by (apply List.in_map; exact IN).
  destruct (e_key e) eqn:K; destruct C as [C|C]; try (destruct C as [C|[]]); try contradiction;
    assert (Q := f_equal snd C); cbn [snd] in Q; subst c; auto.
  right. right. exists e. split; [exact IN|]. rewrite K. left. reflexivity.
Qed.
Lemma rpath_universe path n : rpath path n -> In n universe.
Proof.
  intros H. inversion H; subst.
  - unfold universe. apply in_app_iff. left. apply (List.in_map snd _ _ H0).
  - eapply children_in; eauto.
Qed.

Definition left_over (f : fstate) : nat := open_count (f_stack f) + (length universe - length (f_used f)).
Lemma used_bound f busy : uinv f busy -> length (f_used f) <= length universe.
Proof.
  intros [_ N R]. apply NoDup_incl_length; auto. intros n X. destruct (R n X) as [path P]. eapply rpath_universe; eauto.
Qed.
Lemma previsit_left cs : forall f busy, finv f -> uinv f busy ->
  (forall k n, In (k, n) cs -> visited_once n = true -> rpath (rev (f_access f) ++ [k]) n) ->
  left_over (fold_left previsit cs f) = left_over f.
Proof.
  induction cs as [|[k n] cs IH]; intros f busy I U R; cbn [fold_left]; [reflexivity|].
  destruct (previsit_inv f busy k n I U) as [I1 U1]; [intros V; apply R; [left; reflexivity|exact V]|].
  pose proof (previsit_facts f (k, n)) as (A & F & P & IU & IN).
  rewrite (IH _ busy I1 U1).
  2:{ rewrite A. intros k' n' X V. apply R; auto. right. exact X. }
  assert (B := used_bound _ _ U1). revert B. unfold left_over, previsit.
  destruct (visited_once n); auto. destruct (in_dec rnode_eq_dec n (f_used f)); auto. cbn. lia.
Qed.

Lemma process_left f f' : finv f -> uinv f None -> top_open (f_stack f) ->
  f_stack f <> [] -> process order st max_count f = Ok f' -> S (left_over f') = left_over f.
Proof.
  intros I U T NE P. unfold process in P. destruct (f_stack f) as [|[[n k] b] rest] eqn:ES; [congruence|].
  destruct b; [contradiction|].
  set (f1 := mkF ((n, k, true) :: rest) (k :: f_access f) (f_used f) (f_found f)) in *.
  destruct I as [Ia Is If Ic]. rewrite ES in Ia, Is. cbn [pkeys stack_ok] in Ia, Is. destruct Is as [Is1 Is2].
  assert (I1 : finv f1).
  { constructor; cbn [f1 f_access f_stack f_used f_found pkeys stack_ok]; auto; congruence. }
  assert (U1 : uinv f1 (Some n)).
  { destruct U as [Uu Un Ur]. constructor; auto. cbn [f1 f_used f_stack]. intros x X.
    destruct (Uu x X) as [H|[[k' H]|H]]; [discriminate| |right; right; exact H].
    rewrite ES in H. destruct H as [H|H]; [left; congruence|]. right. left. exists k'. right. exact H. }
  assert (RP : rpath (rev (f_access f1)) n) by (cbn [f1 f_access rev]; rewrite Ia; exact Is1).
  assert (L1 : S (left_over f1) = left_over f) by (unfold left_over; rewrite ES; reflexivity).
  inv_bind P.
  assert (G : left_over a = left_over f1 /\ f_access a = pkeys (f_stack a) /\ stack_ok (f_stack a)).
  { destruct n as [x|tk m|m d].
    - destruct (in_dec item_eq_dec x (s_marked st)); [|discriminate]. assert (a = f1) by congruence. subst a.
      split; [auto|]. split; apply I1.
    - assert (EA : a = fold_left previsit (children (RTok tk m)) f1) by congruence. clear E.
      assert (R : forall k' c, In (k', c) (children (RTok tk m)) -> visited_once c = true -> rpath (rev (f_access f1) ++ [k']) c)
        by (intros k' c X V; eapply rp_step; eauto).
      destruct (previsit_all (children (RTok tk m)) f1 (Some (RTok tk m)) I1 U1 R) as (I2 & _).
      rewrite <- EA in I2. split; [|split; apply I2]. rewrite EA. eapply previsit_left; eauto.
    - match type of E with Ok ?x = _ => assert (a = x) by congruence end. subst a. destruct (length (f_found f1) <? max_count);
        (split; [reflexivity|]; split; apply I1). }
  destruct G as (G & Ga & Gs). destruct (pop_done (f_stack a) (f_access a)) as [s' a'] eqn:PD.
  assert (f' = mkF s' a' (f_used a) (f_found a)) by congruence. subst f'.
  destruct (pop_facts (f_stack a) (f_access a) Ga Gs) as (_ & _ & _ & D & _). rewrite PD in D. cbn [fst] in D.
  unfold left_over in *. cbn [f_stack f_used]. rewrite D. lia.
Qed.
Lemma loop_ends fuel : forall f, finv f -> uinv f None -> top_open (f_stack f) ->
  left_over f <= fuel -> find_loop order st max_count fuel f <> None.
Proof.
  induction fuel as [|fuel IH]; intros f I U T L; cbn; destruct (f_stack f) as [|[[n k] b] rest] eqn:E; try discriminate.
  - unfold left_over in L. rewrite E in L. destruct b; [contradiction|]. cbn in L. lia.
  - destruct (process order st max_count f) as [f1|] eqn:P; [|discriminate]. rewrite <- E in T.
    destruct (process_inv _ _ I U T P) as (I1 & U1 & T1 & _).
    assert (Q := process_left _ _ I U T ltac:(congruence) P). apply IH; auto. lia.
Qed.
Lemma find_ends : exists fuel0, forall fuel, fuel0 <= fuel -> find_diffs order st max_count fuel roots <> None.
Proof.
  destruct start_inv as (I & U & T & _).
  exists (left_over (fold_left previsit roots (mkF [] [] [] []))). intros fuel L. unfold find_diffs.
  pose proof (loop_ends fuel _ I U T L) as H.
  destruct (find_loop order st max_count fuel (fold_left previsit roots (mkF [] [] [] []))) as [[f|]|]; congruence.
Qed.
End Find.
