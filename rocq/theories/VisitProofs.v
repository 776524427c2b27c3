(** Proofs about visiting functors *)
From Coq Require Import List Bool Arith Lia.
From Verif Require Import VisitModel VisitSpec.
Import ListNotations.

Section Proofs.
Variables (id name R E : Type).
Variable id_eqb : id -> id -> bool.
Hypothesis id_ok : forall a b, id_eqb a b = true <-> a = b.
Variable variables : id -> list (name * option id).
Variable callback : id -> list (name * R) -> R + E.
Variable root : id.
Notation state := (state id name R).
Notation outcome := (outcome id R E).
Notation sub := (sub variables).
Notation reach := (reach variables).
Notation recursive := (recursive variables).
Notation value_of := (value_of variables callback).
Notation subs_of := (subs_of variables callback).
Notation find_visited := (find_visited id_eqb).
Notation visit_functor := (visit_functor id_eqb variables callback).

Lemma find_in (l : list (id * R)) f r : find_visited l f = Some r -> In (f, r) l.
Proof.
  induction l as [|[g x] l IH]; cbn; [discriminate|]. destruct (id_eqb g f) eqn:Q.
  - apply id_ok in Q. intros H. injection H as ->. subst. now left.
  - intros H. right. auto.
Qed.
Lemma find_none (l : list (id * R)) f : find_visited l f = None -> ~ In f (map fst l).
Proof.
  induction l as [|[g x] l IH]; cbn; [auto|]. destruct (id_eqb g f) eqn:Q; [discriminate|].
  intros H [<-|K]; [rewrite (proj2 (id_ok g g) eq_refl) in Q; discriminate|]. now apply IH.
Qed.
Lemma mem_in f l : existsb (id_eqb f) l = true <-> In f l.
Proof.
  rewrite existsb_exists. split; [intros (x & X & Q); apply id_ok in Q; now subst|].
  intros H. exists f. split; [exact H|now apply id_ok].
Qed.
Lemma reach_trans a b c : reach a b -> reach b c -> reach a c.
Proof. intros A B. induction B; [exact A|]. econstructor; eauto. Qed.
Lemma subs_app l1 s1 : subs_of l1 s1 -> forall l2 s2, subs_of l2 s2 -> subs_of (l1 ++ l2) (s1 ++ s2).
Proof.
  revert s1. induction l1 as [|[x [g|]] l1 IH]; intros s1 A l2 s2 B; inversion A; subst; cbn; auto; constructor; auto.
Qed.

Definition ordered (l : list (id * R)) : Prop :=
  forall l1 f r l2, l = l1 ++ (f, r) :: l2 -> forall g, sub f g -> In g (map fst l1).
Record inv (s : state) : Prop := {
  i_value : forall f r, In (f, r) (visited s) -> value_of f r;
  i_once : NoDup (map fst (visited s));
  i_order : ordered (visited s);
  i_reach : forall f r, In (f, r) (visited s) -> reach root f;
  i_calls : forall f subs, In (f, subs) (calls s) -> subs_of (variables f) subs }.
Definition even (s : state) : Prop := map fst (calls s) = map fst (visited s).
Definition above (stack : list id) (f : id) : Prop := forall x, In x stack -> exists g, sub x g /\ reach g f.
Definition apart (stack : list id) (s : state) : Prop := forall x, In x stack -> ~ In x (map fst (visited s)).
Definition good (o : outcome) (s : state) : Prop :=
  match o with
  | Done _ => even s
  | Recursive g => even s /\ reach root g /\ recursive g
  | Failed e => exists g subs, reach root g /\ ~ In g (map fst (visited s)) /\ subs_of (variables g) subs /\ callback g subs = inr e /\
      map fst (calls s) = map fst (visited s) ++ [g]
  | Out_of_fuel => even s
  | Not_a_functor => False
  end.
(** Fuel is enough *)
Definition enough (n : nat) (stack : list id) (o : outcome) : Prop :=
  forall U, (forall g, reach root g -> In g U) -> length U < n + length stack -> o <> Out_of_fuel.
Definition visits (n : nat) (stack : list id) (visit : state -> id -> state * outcome) : Prop :=
  forall s f, inv s -> even s -> apart stack s -> above stack f -> reach root f ->
  let (s', o) := visit s f in
  inv s' /\ apart stack s' /\ (exists l, visited s' = visited s ++ l) /\ good o s' /\ enough n stack o /\
  match o with Done r => In (f, r) (visited s') | _ => True end.

Lemma loop_spec n stack visit f : visits n (f :: stack) visit -> reach root f -> above stack f ->
  forall l done, variables f = done ++ l -> forall s subs, inv s -> even s -> apart (f :: stack) s -> subs_of done subs ->
  (forall x g, In (x, Some g) done -> In g (map fst (visited s))) ->
  let (s', r) := visit_variables visit s subs l in
  inv s' /\ apart (f :: stack) s' /\ (exists l, visited s' = visited s ++ l) /\
  match r with
  | inl subs => even s' /\ subs_of (variables f) subs /\ (forall g, sub f g -> In g (map fst (visited s')))
  | inr o => good o s' /\ enough n (f :: stack) o /\ (forall r, o <> Done r)
  end.
Proof.
  intros V RF AB. induction l as [|[x [g|]] l IH]; intros done Q s subs I EV AP SO IN; cbn [visit_variables].
  - rewrite app_nil_r in Q. split; [exact I|]. split; [exact AP|]. split; [exists []; now rewrite app_nil_r|].
    split; [exact EV|]. split; [now rewrite Q|]. intros g (x & X). apply (IN x). now rewrite <- Q.
  - assert (SG : sub f g) by (exists x; rewrite Q; apply in_or_app; right; now left).
    assert (AG : above (f :: stack) g).
    { intros y [<-|Y]; [exists g; split; [exact SG|constructor]|]. destruct (AB y Y) as (h & H1 & H2). exists h. split; [exact H1|].
      econstructor; [exact H2|exact SG]. }
    assert (RG : reach root g) by (econstructor; [exact RF|exact SG]).
    pose proof (V s g I EV AP AG RG) as VS. destruct (visit s g) as [s1 o]. destruct VS as (I1 & AP1 & (e1 & X1) & G1 & F1 & D1).
    destruct o as [r|h|e| |].
    + assert (SO1 : subs_of (done ++ [(x, Some g)]) (subs ++ [(x, r)])).
      { apply subs_app; [exact SO|]. constructor; [exact (i_value _ I1 g r D1)|constructor]. }
      specialize (IH (done ++ [(x, Some g)])). rewrite <- app_assoc in IH. specialize (IH Q s1 _ I1 G1 AP1 SO1).
      destruct (visit_variables visit s1 (subs ++ [(x, r)]) l) as [s2 r2].
      destruct IH as (I2 & AP2 & (e2 & X2) & H2).
      { intros y h H. apply in_app_or in H. destruct H as [H|[H|[]]].
        - rewrite X1, map_app. apply in_or_app. left. now apply (IN y).
        - injection H as <- <-. apply in_map_iff. exists (g, r). auto. }
      split; [exact I2|]. split; [exact AP2|]. split; [exists (e1 ++ e2); now rewrite X2, X1, app_assoc|exact H2].
    + split; [exact I1|]. split; [exact AP1|]. split; [now exists e1|]. split; [exact G1|]. split; [exact F1|discriminate].
    + split; [exact I1|]. split; [exact AP1|]. split; [now exists e1|]. split; [exact G1|]. split; [exact F1|discriminate].
    + split; [exact I1|]. split; [exact AP1|]. split; [now exists e1|]. split; [exact G1|]. split; [exact F1|discriminate].
    + destruct G1.
  - specialize (IH (done ++ [(x, None)])). rewrite <- app_assoc in IH. apply (IH Q s subs I EV AP).
    + rewrite <- (app_nil_r subs). apply subs_app; [exact SO|]. repeat constructor.
    + intros y h H. apply in_app_or in H. destruct H as [H|[H|[]]]; [now apply (IN y)|discriminate].
Qed.

Lemma visit_spec : forall n stack, NoDup stack -> (forall x, In x stack -> reach root x) -> visits n stack (visit_functor n stack).
Proof.
  induction n as [|n IH]; intros stack ND RS s f I EV AP AB RF; cbn [VisitModel.visit_functor].
  - split; [exact I|]. split; [exact AP|]. split; [exists []; now rewrite app_nil_r|]. split; [exact EV|]. split; [|exact Logic.I].
    intros U HU L. exfalso. pose proof (NoDup_incl_length ND (fun x X => HU x (RS x X))). cbn in L. lia.
  - destruct (existsb (id_eqb f) stack) eqn:M.
    + apply mem_in in M. split; [exact I|]. split; [exact AP|]. split; [exists []; now rewrite app_nil_r|].
      split; [split; [exact EV|split; [exact RF|exact (AB f M)]]|]. split; [intros U _ _; discriminate|exact Logic.I].
    + assert (NM : ~ In f stack) by (intros H; apply mem_in in H; congruence). clear M.
      destruct (find_visited (visited s) f) as [r|] eqn:FV.
      * split; [exact I|]. split; [exact AP|]. split; [exists []; now rewrite app_nil_r|]. split; [exact EV|].
        split; [intros U _ _; discriminate|exact (find_in _ _ _ FV)].
      * apply find_none in FV.
        assert (V : visits n (f :: stack) (visit_functor n (f :: stack))).
        { apply IH; [now constructor|]. intros x [<-|X]; auto. }
        assert (AP1 : apart (f :: stack) s) by (intros x [<-|X]; auto).
        pose proof (loop_spec n stack _ f V RF AB (variables f) [] eq_refl s [] I EV AP1 (subs_nil _ _ _ _ _ _) (fun x g H => match H with end)) as LS.
        destruct (visit_variables _ s [] (variables f)) as [s1 [subs|o]]; destruct LS as (I1 & AP2 & (l & X) & H).
        -- destruct H as (EV1 & SO & SV). pose proof (AP2 f (or_introl eq_refl)) as NF.
           destruct (callback f subs) as [r|e] eqn:CB.
           ++ split; [|split; [|split; [|split; [|split; [intros U _ _; discriminate|apply in_or_app; right; now left]]]]].
              ** destruct I1 as [V1 V2 V3 V4 V5]. constructor; cbn [visited calls].
                 --- intros g x H. apply in_app_or in H. destruct H as [H|[H|[]]]; [auto|]. injection H as <- <-. now exists subs.
                 --- rewrite map_app. cbn. apply (NoDup_Add (Add_app f (map fst (visited s1)) [])). rewrite app_nil_r. now split.
                 --- intros l1 g x l2 Q h S. destruct l2 as [|y l2] using rev_ind.
                     +++ apply app_inj_tail in Q. destruct Q as [Q1 Q2]. injection Q2 as <- <-. rewrite <- Q1. now apply SV.
                     +++ clear IHl2. rewrite app_comm_cons, app_assoc in Q. apply app_inj_tail in Q. destruct Q as [Q _].
                         exact (V3 l1 g x l2 Q h S).
                 --- intros g x H. apply in_app_or in H. destruct H as [H|[H|[]]]; [eauto|]. injection H as <- <-. exact RF.
                 --- intros g x H. apply in_app_or in H. destruct H as [H|[H|[]]]; [auto|]. injection H as <- <-. exact SO.
              ** intros x H K. cbn in K. rewrite map_app in K. apply in_app_or in K. destruct K as [K|[K|[]]]; [exact (AP2 x (or_intror H) K)|].
                 cbn in K. subst x. contradiction.
              ** exists (l ++ [(f, r)]). cbn. now rewrite X, app_assoc.
              ** unfold good, even in *. cbn. rewrite !map_app, EV1. reflexivity.
           ++ split; [|split; [|split; [|split; [|split; [intros U _ _; discriminate|exact Logic.I]]]]].
              ** destruct I1 as [V1 V2 V3 V4 V5]. constructor; cbn [visited calls]; auto.
                 intros g x H. apply in_app_or in H. destruct H as [H|[H|[]]]; [auto|]. injection H as <- <-. exact SO.
              ** intros x H. apply AP2. now right.
              ** exists l. exact X.
              ** exists f, subs. cbn. rewrite map_app, EV1. auto.
        -- destruct H as (G1 & F1 & D1). split; [exact I1|]. split; [intros x H; apply AP2; now right|]. split; [now exists l|].
           split; [exact G1|]. split; [|destruct o; auto; now destruct (D1 r)].
           intros U HU L. apply (F1 U HU). cbn [length]. lia.
Qed.

Lemma top n : let (s, o) := visit_functor n [] (State [] []) root in
  inv s /\ good o s /\ enough n [] o /\ match o with Done r => In (root, r) (visited s) | _ => True end.
Proof.
  pose proof (visit_spec n [] (NoDup_nil _) (fun x H => match H with end) (State [] []) root) as V.
  destruct (visit_functor n [] (State [] []) root) as [s o]. destruct V as (A & _ & _ & B & C & D); [|reflexivity|intros x []|intros x []|constructor|auto].
  constructor; cbn; try tauto; [constructor|]. intros l1 f r l2 H. now destruct l1.
Qed.
Lemma all_reached s r : inv s -> In (root, r) (visited s) -> forall f, reach root f -> In f (map fst (visited s)).
Proof.
  intros I H f RF. induction RF as [|g h _ IH S]; [apply in_map_iff; now exists (root, r)|].
  apply in_map_iff in IH. destruct IH as ([g' x] & Q & K). cbn in Q. subst g'. apply in_split in K. destruct K as (l1 & l2 & K).
  rewrite K, map_app. apply in_or_app. left. exact (i_order _ I l1 g x l2 K h S).
Qed.
(** What is visited is not recursive *)
Lemma ordered_sub l : ordered l -> NoDup (map fst l) -> forall l1 f r l2, l = l1 ++ (f, r) :: l2 -> forall g, reach f g ->
  g = f \/ In g (map fst l1).
Proof.
  intros O ND l1 f r l2 Q g RG. induction RG as [|g h _ IH S]; [now left|]. right. destruct IH as [->|IH]; [exact (O _ _ _ _ Q _ S)|].
  apply in_map_iff in IH. destruct IH as ([g' x] & Q1 & K). cbn in Q1. subst g'. apply in_split in K. destruct K as (k1 & k2 & ->).
  rewrite <- app_assoc in Q. cbn in Q. rewrite map_app. apply in_or_app. left. exact (O _ _ _ _ Q _ S).
Qed.
Lemma visited_not_recursive s f : inv s -> In f (map fst (visited s)) -> ~ recursive f.
Proof.
  intros I H (g & S & RG). apply in_map_iff in H. destruct H as ([f' r] & Q & K). cbn in Q. subst f'. apply in_split in K. destruct K as (l1 & l2 & K).
  pose proof (i_order _ I _ _ _ _ K g S) as G. pose proof (i_once _ I) as ND.
  apply in_map_iff in G. destruct G as ([g' x] & Q & G). cbn in Q. subst g'. apply in_split in G. destruct G as (k1 & k2 & G). subst l1.
  assert (K' : visited s = k1 ++ (g, x) :: k2 ++ (f, r) :: l2) by (rewrite K, <- app_assoc; reflexivity).
  assert (X : f = g \/ In f (map fst k1)) by (exact (ordered_sub _ (i_order _ I) ND _ _ _ _ K' f RG)).
  rewrite K, map_app in ND. cbn [map fst] in ND. apply NoDup_remove_2 in ND. apply ND. apply in_or_app. left. rewrite map_app. apply in_or_app.
  destruct X as [->|X]; [right; now left|now left].
Qed.
End Proofs.
