(** Proofs about partial application: the shared part. *)
From Coq Require Import String List Bool Arith Lia Relations.
From Verif Require Import SignatureModel SignatureSpec SignatureProofs FunctorModel FunctorSpec FunctorProofs FunctorCallProofs
  AutoVarModel AutoVarProofs AutoVarTopProofs BindModel BindSpec.
Import ListNotations.
Local Open Scope string_scope.
Local Open Scope nat_scope.
Local Open Scope list_scope.

(** ** override *)
Section Override.
Context {A : Type}.
Implicit Types l a b c : list (string * A).

Lemma override_names a b : map fst (override a b) = map fst a ++ filter (fun n => match lookup n a with Some _ => false | None => true end) (map fst b).
Proof.
  unfold override. rewrite map_app, map_map. cbn [fst]. f_equal.
  induction b as [|[n v] b IH]; cbn; [reflexivity|]. destruct (lookup n a); cbn; rewrite IH; reflexivity.
Qed.
Lemma lookup_map_values (g : string -> A -> A) a n :
  lookup n (map (fun x => (fst x, g (fst x) (snd x))) a) = match lookup n a with Some v => Some (g n v) | None => None end.
Proof.
  induction a as [|[m v] a IH]; cbn; [reflexivity|]. destruct (String.eqb_spec n m) as [->|N]; [reflexivity|exact IH].
Qed.
Lemma lookup_filter (p : string -> bool) a n :
  lookup n (filter (fun x => p (fst x)) a) = if p n then lookup n a else None.
Proof.
  induction a as [|[m v] a IH]; cbn; [destruct (p n); reflexivity|]. destruct (p m) eqn:P; cbn.
  - destruct (String.eqb_spec n m) as [->|N]; [rewrite P; reflexivity|exact IH].
  - destruct (String.eqb_spec n m) as [->|N]; [rewrite IH, P; reflexivity|exact IH].
Qed.
Lemma override_lookup a b n : lookup n (override a b) = match lookup n b with Some v => Some v | None => lookup n a end.
Proof.
  unfold override. rewrite lookup_app. rewrite (lookup_map_values (fun n v => match lookup n b with Some w => w | None => v end)).
  rewrite (lookup_filter (fun m => match lookup m a with Some _ => false | None => true end)).
  destruct (lookup n a), (lookup n b); reflexivity.
Qed.
Lemma override_nodup a b : NoDup (map fst a) -> NoDup (map fst b) -> NoDup (map fst (override a b)).
Proof.
  intros NA NB. rewrite override_names. induction a as [|[n v] a IH]; cbn [map app fst].
  - cbn. rewrite (proj2 (forallb_filter_id _ (map fst b))) || idtac.
    induction (map fst b) as [|m l IHl]; cbn; [constructor|]. inversion NB; subst. constructor; [|apply IHl; assumption].
    intros I. apply filter_In in I. tauto.
  - inversion NA as [|? ? N1 N2]; subst. clear IH.
    assert (G : forall l l' : list string, NoDup l -> NoDup l' -> (forall x, In x l' -> ~ In x l) -> NoDup (l ++ l')).
    { induction l as [|x l IH]; intros l' H H' D; [exact H'|]. inversion H; subst. cbn. constructor.
      - rewrite in_app_iff. intros [I|I]; [contradiction|]. apply (D x I). left. reflexivity.
      - apply IH; auto. intros y Y I. apply (D y Y). right. exact I. }
    change (n :: map fst a ++ filter (fun n0 => match lookup n0 ((n, v) :: a) with Some _ => false | None => true end) (map fst b))
      with ((n :: map fst a) ++ filter (fun n0 => match lookup n0 ((n, v) :: a) with Some _ => false | None => true end) (map fst b)).
    apply G; [exact NA| |].
    + apply NoDup_filter. exact NB.
    + intros x X. apply filter_In in X. destruct X as [_ X]. intros I.
      destruct (lookup x ((n, v) :: a)) eqn:E; [discriminate|]. apply lookup_none in E. apply E. exact I.
Qed.
Lemma same_list l : forall l', NoDup (map fst l) -> map fst l = map fst l' -> (forall n, lookup n l = lookup n l') -> l = l'.
Proof.
  induction l as [|[n v] l IH]; intros [|[m w] l'] ND E L; try discriminate; [reflexivity|].
  cbn in E. injection E as -> E. inversion ND as [|? ? N1 N2]; subst.
  pose proof (L m) as Q. cbn in Q. rewrite String.eqb_refl in Q. injection Q as ->. f_equal. apply IH; auto.
  intros x. destruct (String.eqb_spec x m) as [->|N].
  - rewrite !(proj2 (lookup_none m _)); [reflexivity| |exact N1]. rewrite <- E. exact N1.
  - specialize (L x). cbn in L. rewrite (proj2 (String.eqb_neq x m) N) in L. exact L.
Qed.
Lemma filter_filter {B} (p q : B -> bool) (l : list B) : filter p (filter q l) = filter (fun x => q x && p x) l.
Proof. induction l as [|x l IH]; cbn; [reflexivity|]. destruct (q x); cbn; rewrite IH; reflexivity. Qed.
Lemma override_assoc a b c : NoDup (map fst a) -> NoDup (map fst b) -> NoDup (map fst c) ->
  override a (override b c) = override (override a b) c.
Proof.
  intros NA NB NC. apply same_list.
  - apply override_nodup; [exact NA|]. apply override_nodup; assumption.
  - rewrite !override_names, filter_app, filter_filter, <- app_assoc. f_equal. f_equal. apply filter_ext. intros n.
    rewrite override_lookup. destruct (lookup n b), (lookup n a); reflexivity.
  - intros n. rewrite !override_lookup. destruct (lookup n c); reflexivity.
Qed.
End Override.

Lemma forall2_map_some {A B} (f : A -> option B) l l' : map f l = map Some l' <-> Forall2 (fun x y => f x = Some y) l l'.
Proof.
  revert l'. induction l as [|x l IH]; intros [|y l']; cbn; split; intros H; try discriminate; try (inversion H; fail); auto.
  - injection H as H1 H2. constructor; [exact H1|]. apply IH. exact H2.
  - inversion H; subst. f_equal; [assumption|]. apply IH. assumption.
Qed.

Section Shared.
Variables (V op bag : Type).
Local Notation expr := (expr V op).
Local Notation slice := (slice V op).
Local Notation functor := (functor V op).
Variable self_default : V.
Variable as_object : list (param V) -> V.
Variable ops : operators op.
Variable op_with_bag : op.
Variable token : V.
Variable eval_op : op -> list (option V) -> option V.
Variable with_bag : bag -> V -> V.
Variable bag_value : bag -> V.
Variable tuple_value : list V -> V.
Variable named_value : list (string * V) -> V.
Variable names_value : list string -> V.
Variable number_value : nat -> V.
Variable text_value : string -> V.
Variable apply : V -> V -> list V -> list (string * V) -> option V.
Hypothesis op_with_bag_ok : forall b v, eval_op op_with_bag [Some v; Some (bag_value b)] = Some (with_bag b v).
Hypothesis comp : computes ops token eval_op tuple_value named_value names_value number_value text_value apply.
Local Notation denotes := (denotes token eval_op with_bag).
Local Notation call := (call op_with_bag token eval_op with_bag bag_value tuple_value named_value).

(** ** The signature *args, **kwargs *)
Lemma binds_rest ud pos kw r : binds (V := V) ud args_kwargs pos kw r <-> NoDup (map fst kw) /\ r = [Tuple pos; NamedTuple kw].
Proof.
  assert (UK : forall n, ~ known (V := V) args_kwargs n).
  { intros n (p & [<-|[<-|[]]] & [K|K] & _); discriminate. }
  split.
  - intros (ND & _ & _ & _ & L & B). split; [exact ND|].
    destruct (B 0 _ eq_refl) as (v0 & E0 & V0). destruct (B 1 _ eq_refl) as (v1 & E1 & V1).
    destruct r as [|x [|y [|]]]; try discriminate. cbn in E0, E1. injection E0 as <-. injection E1 as <-.
    assert (X : x = Tuple pos).
    { inversion V0; subst;
        match goal with
        | H : by_position _ |- _ => destruct H; discriminate
        | H : by_keyword _ |- _ => destruct H; discriminate
        | H : ~ takes_rest _ |- _ => exfalso; apply H; left; reflexivity
        | H : p_kind _ = VarKeyword |- _ => discriminate H
        | |- _ => reflexivity
        end. }
    assert (Y : y = NamedTuple kw).
    { inversion V1 as [| | | |? ? ? Q KN (keep & KE)]; subst;
        match goal with
        | H : by_position _ |- _ => destruct H; discriminate
        | H : by_keyword _ |- _ => destruct H; discriminate
        | H : ~ takes_rest _ |- _ => exfalso; apply H; right; reflexivity
        | H : p_kind _ = VarPositional |- _ => discriminate H
        | |- _ => idtac
        end.
      - f_equal. clear - KN UK. assert (G : forall x, In x kw -> keep x = true).
        { intros [n v] I. assert (J : In (n, v) (filter keep kw)) by (apply KN; split; [exact I|apply UK]).
          apply filter_In in J. apply J. }
        clear KN. induction kw as [|x k IH]; cbn; [reflexivity|]. rewrite (G x (or_introl eq_refl)). f_equal. apply IH.
        intros z Z. apply G. right. exact Z. }
    subst. reflexivity.
  - intros [ND ->]. split; [exact ND|]. split; [|split; [|split; [|split; [reflexivity|]]]].
    + intros [|[|i]] p E [K|K]; unfold at_ in E; cbn in E; try (injection E as <-; discriminate); destruct i; discriminate.
    + intros H. exfalso. apply (H _ (or_introl eq_refl)). reflexivity.
    + intros H. exfalso. apply (H _ (or_intror (or_introl eq_refl))). reflexivity.
    + intros [|[|i]] p E; unfold at_ in E; cbn in E; [| |destruct i; discriminate]; injection E as <-; cbn.
      * exists (Tuple pos). split; [reflexivity|]. exact (RestOfPositions V ud args_kwargs pos kw 0 (mkParam "args" VarPositional None) eq_refl).
      * exists (NamedTuple kw). split; [reflexivity|]. apply RestOfKeywords; [reflexivity| |].
        -- intros n v. split; [intros I; split; [exact I|apply UK]|intros [I _]; exact I].
        -- exists (fun _ => true). clear. induction kw as [|x k IH]; cbn; [reflexivity|]. rewrite <- IH. reflexivity.
Qed.
Lemma rest_valid : valid_parameters (V := V) args_kwargs.
Proof.
  assert (H : create_signature (V := V) args_kwargs = Good (mkSig args_kwargs [])) by reflexivity.
  apply create_signature_iff in H. apply H.
Qed.

(** ** Outcomes *)
Lemma den_exists (f : functor) b (inputs : list (string * V)) : has_attr "returns" f -> has_attr "__signature__" f ->
  acyclic f -> plain f -> defined f -> (wants f "__bag" -> lookup "__bag" inputs = Some (bag_value b)) ->
  exists den, denotes b f (fun n => lookup n inputs) den.
Proof.
  intros HR HS AC PL DEF B. pose proof (inline_all_ok V op f op_with_bag token eval_op HR HS) as I.
  destruct (inline_all op_with_bag f) as [e|e].
  - destruct I as (_ & _ & _ & _ & _ & _ & I). destruct (I bag with_bag b inputs (bag_value b) (op_with_bag_ok b) B) as (den & D & _).
    exists den. exact D.
  - exfalso. destruct I as [T|(x & -> & R & L)]; [|apply (DEF x R L)].
    destruct e; cbn in T; try contradiction.
    + destruct T as (x & q & R & L & S). apply (PL x q R L S).
    + destruct T as [R C]. apply (AC _ R C).
Qed.

Definition ins b pos kw : list (string * V) := [("args", tuple_value pos); ("kwargs", named_value kw); ("__bag", bag_value b)].
Record ready (g : functor) (e : expr) : Prop := {
  r_returns : lookup "returns" g = Some (Quote e);
  r_signature : exists v, lookup "__signature__" g = Some (SignatureObject v args_kwargs);
  r_acyclic : acyclic g; r_plain : plain g; r_defined : defined g;
  r_wants : forall n, wants g n -> In n ["args"; "kwargs"; "__bag"] }.
Lemma ready_has g e : ready g e -> has_attr "returns" g /\ has_attr "__signature__" g.
Proof.
  intros R. split; [exists (Quote e); split; [apply (r_returns _ _ R)|intros; discriminate]|].
  destruct (r_signature _ _ R) as [v L]. exists (SignatureObject v args_kwargs). split; [exact L|intros; discriminate].
Qed.
Lemma ready_den g e b pos kw : ready g e -> exists den, denotes b g (fun n => lookup n (ins b pos kw)) den.
Proof.
  intros R. destruct (ready_has _ _ R) as [HR HS]. apply den_exists; auto; try apply R.
Qed.
Lemma ready_call g e b pos kw den v : ready g e -> denotes b g (fun n => lookup n (ins b pos kw)) den ->
  call b g (pos ++ map snd kw) (map fst kw) = Ok v <-> NoDup (map fst kw) /\ den "returns" = Some v.
Proof.
  intros R D. destruct (ready_has _ _ R) as [HR HS]. rewrite (call_iff V op bag op_with_bag token eval_op with_bag bag_value tuple_value named_value op_with_bag_ok b g pos kw v).
  destruct (r_signature _ _ R) as [sv L]. split.
  - intros (sv' & ps & r & den' & _ & L' & VP & AC & PL & DEF & B & IN & TW & DE & DR).
    rewrite L in L'. injection L' as <- <-. apply binds_rest in B. destruct B as [ND ->]. split; [exact ND|].
    rewrite <- DR. apply (denotes_unique V op g token eval_op bag with_bag b _ den den' HR HS AC PL DEF D DE "returns"). apply rt_refl.
  - intros [ND DR]. exists sv, args_kwargs, [Tuple pos; NamedTuple kw], den.
    split; [exact HR|]. split; [exact L|]. split; [exact rest_valid|]. split; [apply R|]. split; [apply R|]. split; [apply R|].
    split; [apply binds_rest; auto|]. split; [|split; [|split; [exact D|exact DR]]].
    + intros n W. destruct (r_wants _ _ R n W) as [<-|[<-|[<-|[]]]]; cbn; auto.
    + intros _ [E|[E|[]]]; discriminate.
Qed.

(** ** Created functors with that signature *)
Lemma created_ready e vars g : NoDup ("returns" :: map fst vars ++ ["__signature__"]) ->
  create_functor self_default as_object (0, Quote e) (args_kwargs_signature V op as_object) vars = Ok g ->
  (forall n, occurs "I" n e -> In n ["args"; "kwargs"]) ->
  (forall x r q n, In (x, (r, Quote q)) vars -> occurs "I" n q -> In n ["args"; "kwargs"]) ->
  ready g e
  /\ (forall n s, In (n, s) vars -> fst s = 0 /\ lookup n g = Some (snd s))
  /\ (forall n i, reachable g n -> lookup n g = Some i -> n = "returns" /\ i = Quote e \/ exists s, In (n, s) vars /\ i = snd s).
Proof.
  intros ND C OE OV. pose proof C as CR.
  apply (create_iff V op self_default as_object _ _ _ _ ND) in CR.
  destruct (created_signature V op self_default as_object _ _ _ _ ND CR) as (HR & AC & PL & DEF & _).
  destruct CR as (_ & _ & _ & VR & (s & SF & E) & _ & _ & RE). cbn [snd args_kwargs_signature] in SF, E.
  destruct SF as [(v & ps & Q & _ & ->)|(v & nm & ps & Q & _)]; [|discriminate]. clear Q v ps.
  inversion ND as [|? ? N1 N2]; subst. apply nodup_snoc_inv in N2. destruct N2 as [N2 N3].
  rewrite in_app_iff in N1.
  set (vs := map (fun x : string * slice => (fst x, snd (snd x))) vars) in *.
  assert (FS : map fst vs = map fst vars) by (unfold vs; rewrite map_map; reflexivity).
  set (g := ("returns", Quote e) :: vs ++ [("__signature__", SignatureObject (as_object args_kwargs) args_kwargs)]) in *.
  assert (LV : forall n, n <> "returns" -> n <> "__signature__" -> lookup n g = lookup n vs).
  { intros n A B. unfold g. cbn [lookup]. rewrite (proj2 (String.eqb_neq _ _) A). rewrite lookup_app.
    destruct (lookup n vs); [reflexivity|]. cbn. rewrite (proj2 (String.eqb_neq _ _) B). reflexivity. }
  assert (LS : lookup "__signature__" g = Some (SignatureObject (as_object args_kwargs) args_kwargs)).
  { unfold g. cbn [lookup]. cbn. rewrite lookup_app, (proj2 (lookup_none "__signature__" vs)); [reflexivity|]. rewrite FS. exact N3. }
  assert (NS : forall x, reachable g x -> x <> "__signature__").
  { intros x R ->. destruct (RE _ R) as [Q|Q]; [discriminate|contradiction]. }
  assert (REACH : forall n i, reachable g n -> lookup n g = Some i -> n = "returns" /\ i = Quote e \/ exists s, In (n, s) vars /\ i = snd s).
  { intros n i R L. destruct (string_dec n "returns") as [->|NR]; [left; split; [reflexivity|]; cbn in L; congruence|]. right.
    rewrite (LV n NR (NS n R)) in L. apply lookup_in in L. unfold vs in L. apply in_map_iff in L. destruct L as ([m sl] & Q & I).
    cbn in Q. injection Q as -> <-. exists sl. auto. }
  split; [constructor|split]; auto.
  - eexists. exact LS.
  - intros n (x & i & R & L & W). destruct (REACH x i R L) as [[-> ->]|([r j] & I & ->)].
    + destruct (OE n W) as [<-|[<-|[]]]; cbn; auto.
    + cbn [snd] in W. destruct j as [q|v|v|v ps|v]; try contradiction; try (subst n; cbn; tauto).
      destruct (OV _ _ _ _ I W) as [<-|[<-|[]]]; cbn; auto.
  - intros n sl I. split; [destruct sl as [r i]; apply (VR n r i I)|].
    assert (IN : In n (map fst vars)) by (change n with (fst (n, sl)); apply List.in_map; exact I).
    rewrite LV.
    + apply lookup_nodup; [rewrite FS; exact N2|]. unfold vs. apply in_map_iff. exists (n, sl). auto.
    + intros ->. apply N1. left. exact IN.
    + intros ->. apply N3. exact IN.
Qed.

(** ** The expression *)
Local Notation lam := (capturing_lambda ops names_value).
Lemma names_variables c (l : list string) : flat_map (names_in c) (map (variable (V := V) (op := op)) l) = if String.eqb c "V" then l else [].
Proof.
  induction l as [|n l IH]; cbn; [destruct (String.eqb c "V"); reflexivity|]. rewrite IH. destruct (String.eqb c "V"); reflexivity.
Qed.
Lemma lam_inputs rt names knames n : occurs "I" n (lam rt names knames) <-> In n ["args"; "kwargs"].
Proof.
  rewrite <- names_in_iff. cbn. rewrite !names_variables. cbn. tauto.
Qed.
Lemma lam_variables rt names knames n : occurs "V" n (lam rt names knames) <-> n = "_aux_fn" \/ In n names \/ In n knames.
Proof.
  rewrite <- names_in_iff. cbn. rewrite !names_variables. cbn. rewrite !app_nil_r, in_app_iff. split; intros [H|H]; auto; try (left; congruence).
Qed.

Definition env b pos kw (den : string -> option V) (c n : string) : option V :=
  if String.eqb c "V" then den n else lookup n (ins b pos kw).
Lemma eval_variables b pos kw den names : map (eval token eval_op (env b pos kw den)) (map (variable (V := V) (op := op)) names) = map den names.
Proof. rewrite map_map. reflexivity. Qed.
Lemma eval_lam b pos kw den rt names kvs fv avs : NoDup (map fst kw) -> NoDup (map fst kvs) ->
  den "_aux_fn" = Some fv -> map den names = map Some avs -> map den (map fst kvs) = map Some (map snd kvs) ->
  eval token eval_op (env b pos kw den) (lam rt names (map fst kvs)) = apply rt fv (avs ++ pos) (override kvs kw).
Proof.
  intros NK NV DF DA DK. unfold capturing_lambda, tuple_of_variables, named_tuple_of_variables, argument_names_tuple.
  cbn [eval map]. rewrite !eval_variables, DA, DK.
  change (eval token eval_op (env b pos kw den) (variable aux_fn)) with (den "_aux_fn"). rewrite DF.
  change (env b pos kw den "I" "args") with (Some (tuple_value pos)).
  change (env b pos kw den "I" "kwargs") with (Some (named_value kw)).
  rewrite (of_tuple _ _ _ _ _ _ _ _ _ _ _ comp), (of_named _ _ _ _ _ _ _ _ _ _ _ comp) by exact NV.
  rewrite (of_concat _ _ _ _ _ _ _ _ _ _ _ comp), (of_union _ _ _ _ _ _ _ _ _ _ _ comp) by assumption.
  apply (of_call _ _ _ _ _ _ _ _ _ _ _ comp). apply override_nodup; assumption.
Qed.
Lemma eval_lam_strict b pos kw den rt names knames v : eval token eval_op (env b pos kw den) (lam rt names knames) = Some v ->
  (forall n, In n names \/ In n knames -> den n <> None).
Proof.
  intros E n N D. unfold capturing_lambda, tuple_of_variables, named_tuple_of_variables, argument_names_tuple in E.
  cbn [eval map] in E. rewrite !eval_variables in E.
  pose proof (strict _ _ _ _ _ _ _ _ _ _ _ comp) as ST.
  assert (M : forall l : list string, In n l -> In None (map den l)) by (intros l I; rewrite <- D; apply List.in_map; exact I).
  rewrite (ST (o_call ops)) in E; [discriminate|cbn; tauto|]. destruct N as [N|N].
  - right. left. apply ST; [cbn; tauto|]. left. apply ST; [cbn; tauto|]. apply M. exact N.
  - right. right. right. left. apply ST; [cbn; tauto|]. left. apply ST; [cbn; tauto|]. right. apply M. exact N.
Qed.

(** ** Bound values that are no expressions *)
Lemma item_value_den b g den inputs n i v : denotes b g inputs den -> reachable g n -> lookup n g = Some i ->
  item_value with_bag b i v -> den n = Some v.
Proof. intros D R L I. rewrite (D n i R L). inversion I; reflexivity. Qed.
Lemma ready_reach g rt names knames n : ready g (lam rt names knames) -> n = "_aux_fn" \/ In n names \/ In n knames -> reachable g n.
Proof.
  intros R N. apply rt_step. exists (lam rt names knames). split; [apply R|]. apply lam_variables. exact N.
Qed.

Lemma plain_call rt names vars g fn (args : list slice) (kwargs : list (string * slice)) b fv avs kvs pos kw v :
  NoDup ("returns" :: map fst vars ++ ["__signature__"]) -> NoDup (map fst kwargs) -> length names = length args ->
  create_functor self_default as_object (0, Quote (lam rt names (map fst kwargs))) (args_kwargs_signature V op as_object) vars = Ok g ->
  (forall x, In x vars <-> x = ("_aux_fn", fn) \/ In x (combine names args) \/ In x kwargs) ->
  item_value with_bag b (snd fn) fv -> Forall2 (fun s x => item_value with_bag b (snd s) x) args avs ->
  Forall2 (fun s x => fst s = fst x /\ item_value with_bag b (snd (snd s)) (snd x)) kwargs kvs ->
  call b g (pos ++ map snd kw) (map fst kw) = Ok v <->
  NoDup (map fst kw) /\ apply rt fv (avs ++ pos) (override kvs kw) = Some v.
Proof.
  intros ND NK LEN C VARS FV AV KV.
  assert (KN : map fst kwargs = map fst kvs).
  { clear - KV. induction KV as [|x y l l' [E _] _ IH]; cbn; [reflexivity|f_equal; [exact E|exact IH]]. }
  assert (NQ : forall x r q, In (x, (r, Quote q)) vars -> False).
  { intros x r q I. apply VARS in I. destruct I as [I|[I|I]].
    - injection I as _ <-. inversion FV.
    - apply in_combine_r in I. destruct (Forall2_In_l _ _ _ _ AV I) as (y & _ & Q). inversion Q.
    - destruct (Forall2_In_l _ _ _ _ KV I) as (y & _ & _ & Q). inversion Q. }
  destruct (created_ready _ _ _ ND C) as (R & VL & _).
  { intros n. apply lam_inputs. }
  { intros x r q n I. exfalso. eapply NQ; exact I. }
  destruct (ready_den _ _ b pos kw R) as [den D]. rewrite (ready_call _ _ b pos kw den v R D).
  assert (DV : forall n s x, In (n, s) vars -> n = "_aux_fn" \/ In n names \/ In n (map fst kwargs) ->
            item_value with_bag b (snd s) x -> den n = Some x).
  { intros n s x I N Q. destruct (VL n s I) as [_ L]. apply (item_value_den b g den _ n (snd s) x D); auto.
    apply (ready_reach g rt names (map fst kwargs)); auto. }
  assert (E : NoDup (map fst kw) -> den "returns" = apply rt fv (avs ++ pos) (override kvs kw)).
  { intros NKW. rewrite (D "returns" _ (rt_refl _ _ _) (r_returns _ _ R)). change (fun c n => if String.eqb c "V" then den n else lookup n (ins b pos kw)) with (env b pos kw den).
    rewrite KN. apply eval_lam; [exact NKW|rewrite <- KN; exact NK| | |].
    - apply (DV "_aux_fn" fn fv); auto. apply VARS. auto.
    - apply forall2_map_some.
      assert (IN : forall n s, In (n, s) (combine names args) -> In (n, s) vars) by (intros n s I; apply VARS; auto).
      assert (IN' : forall n s x, In (n, s) (combine names args) -> item_value with_bag b (snd s) x -> den n = Some x).
      { intros n s x I Q. apply (DV n s x (IN n s I)); [|exact Q]. right. left. apply in_combine_l in I. exact I. }
      clear - LEN AV IN'. revert names LEN IN'. induction AV as [|s x args avs H AV IH]; intros [|n names] LEN IN'; try discriminate; constructor.
      + apply (IN' n s x); [left; reflexivity|exact H].
      + apply IH; [cbn in LEN; congruence|]. intros n' s' x' I. apply IN'. right. exact I.
    - apply forall2_map_some.
      assert (IN' : forall n s x, In (n, s) kwargs -> item_value with_bag b (snd s) x -> den n = Some x).
      { intros n s x I Q. apply (DV n s x); [apply VARS; auto| |exact Q]. right. right. change n with (fst (n, s)). apply List.in_map. exact I. }
      clear - KV IN'. induction KV as [|[n s] [m x] kwargs kvs [E H] KV IH]; cbn in *; constructor.
      + subst m. apply (IN' n s x); [left; reflexivity|exact H].
      + apply IH. intros n' s' x' I. apply IN'. right. exact I. }
  split; intros [A B]; split; auto; [rewrite <- E; auto|rewrite E; auto].
Qed.
End Shared.
