(** Automatic variables: the new functor computes what the old one computes. *)
From Coq Require Import String List Bool Arith Lia Relations Permutation.
From Verif Require Import SignatureModel SignatureSpec FunctorModel FunctorSpec FunctorProofs FunctorCallProofs AutoVarModel AutoVarSpec AutoVarProofs.
Import ListNotations.
Local Open Scope string_scope.
Local Open Scope nat_scope.
Local Open Scope list_scope.

(** ** Two functors whose expressions are alike *)
Section Alike.
Variables (V op : Type).
Local Notation expr := (expr V op).
Local Notation item := (item V op).
Local Notation functor := (functor V op).
Variable kind : op -> op_kind.
Variable is_unspecified : V -> bool.
Variable rank : V -> nat.
Variable num : nat -> V.
Variable implode : V -> V.
Variable op_explode : op.
Variable stored : V -> item.
Variables (bag : Type) (token : V) (eval_op : op -> list (option V) -> option V) (with_bag : bag -> V -> V) (b : bag).
Variable vs0 : list (string * item).
Variable W : list (string * item).
Local Notation like := (like V op kind is_unspecified rank num implode op_explode stored bag eval_op with_bag b vs0 W).
Local Notation like_ind' := (like_rect' V op kind is_unspecified rank num implode op_explode stored bag eval_op with_bag b vs0 W).
Local Notation storable := (storable rank num implode op_explode stored eval_op with_bag b).
Local Notation value_of := (value_of with_bag b).
Local Notation old := (old V op vs0).
Local Notation var := (AutoVarModel.var V op).
Variables f g : functor.
Hypothesis Hold : forall x, old x <-> x <> "__signature__" /\ lookup x f <> None.
Hypothesis HW : forall x, old x -> lookup x W = None.
Hypothesis HWsig : lookup "__signature__" W = None.
Hypothesis Hquote : forall x e, x <> "__signature__" -> lookup x f = Some (Quote e) -> exists t, lookup x g = Some (Quote t) /\ like e t.
Hypothesis Hitem : forall x i, x <> "__signature__" -> lookup x f = Some i -> (forall e, i <> Quote e) -> lookup x g = Some i.
Hypothesis Hnew : forall x i, x <> "__signature__" -> lookup x f = None -> lookup x g = Some i -> lookup x W = Some i.
Hypothesis Hret : old "returns".
Hypothesis Hdefined : defined g.
Hypothesis Hsig : forall x, reachable g x -> x <> "__signature__".
Hypothesis Hsigf : forall x, reachable f x -> x <> "__signature__".
Hypothesis Htrans : transparent kind is_unspecified eval_op.

Inductive hasin (c n : string) : expr -> Prop :=
| HHere t : occurs c n t -> hasin c n t
| HVar t y t' : occurs "V" y t -> lookup y W = Some (Quote t') -> hasin c n t' -> hasin c n t.

Lemma hasin_arg c n o args a : In a args -> hasin c n a -> hasin c n (Call o args).
Proof.
  intros I H. destruct H as [t H|t y t' O L H].
  - apply HHere. apply (OccursBelow V op c n o args t); assumption.
  - apply (HVar c n _ y t'); auto. apply (OccursBelow V op "V" y o args t); assumption.
Qed.
Lemma hasin_call c n o args : hasin c n (Call o args) -> exists a, In a args /\ hasin c n a.
Proof.
  intros H. inversion H as [t O|t y t' O L H']; subst.
  - inversion O; subst. eexists. split; [eassumption|]. apply HHere. assumption.
  - inversion O; subst. eexists. split; [eassumption|]. apply (HVar c n _ y t'); assumption.
Qed.
Lemma hasin_lit c n v : ~ hasin c n (Lit v).
Proof. intros H. inversion H as [t O|t y t' O L H']; inversion O. Qed.
Lemma not_quote v q : storable v -> (if rank v =? 0 then stored v else stored (implode v)) <> Quote q.
Proof. intros S. destruct (storable_value V op rank num implode op_explode stored bag eval_op with_bag b v S) as (w & E). intros Q. rewrite Q in E. discriminate. Qed.

Lemma like_occurs c n : forall e t, like e t -> occurs c n e -> hasin c n t.
Proof.
  apply (like_ind' (fun e t => occurs c n e -> hasin c n t)).
  - intros v O. inversion O.
  - intros c' m _ O. apply HHere. exact O.
  - intros O. inversion O.
  - intros k O. inversion O.
  - intros k O. inversion O.
  - intros o args args' _ F O. inversion O as [|? ? a IA OA]; subst. destruct (Forall2_In_l _ _ _ a F IA) as (a' & IA' & H).
    apply (hasin_arg c n o args' a' IA'). auto.
  - intros e y t _ L _ IH O. apply (HVar c n _ y t); auto. constructor.
  - intros v y _ _ _ _ O. inversion O.
  - intros v y _ _ _ _ O. inversion O.
  - intros o e t y u _ _ _ IH _ IHy O. inversion O as [|? ? a IA OA]; subst. destruct IA as [<-|[<-|[]]]; [auto|].
    destruct (hasin_lit c n u). auto.
  - intros o e l t _ LL _ IH O. inversion O as [|? ? a IA OA]; subst. destruct IA as [<-|IA]; [auto|].
    destruct (LL a IA) as (v & ->). inversion OA.
  - intros o e v t _ _ IH O. inversion O as [|? ? a IA OA]; subst. destruct IA as [<-|[<-|[]]]; [auto|inversion OA].
Qed.
Lemma like_has c n : c = "I" \/ (c = "V" /\ old n) -> forall e t, like e t -> hasin c n t -> occurs c n e.
Proof.
  intros C. apply (like_ind' (fun e t => hasin c n t -> occurs c n e)).
  - intros v H. destruct (hasin_lit c n v H).
  - intros c' m O H. inversion H as [t Oc|t y t' Oc L H']; subst; [exact Oc|]. inversion Oc; subst. rewrite (HW m (O eq_refl)) in L. discriminate.
  - intros H. inversion H as [t Oc|t y t' Oc L H']; inversion Oc.
  - intros k H. inversion H as [t Oc|t y t' Oc L H']; inversion Oc.
  - intros k H. inversion H as [t Oc|t y t' Oc L H']; inversion Oc.
  - intros o args args' _ F H. apply hasin_call in H. destruct H as (a' & IA' & H).
    destruct (Forall2_In_r _ _ _ a' F IA') as (a & IA & IH). apply (OccursBelow V op c n o args a IA). auto.
  - intros e y t NO L _ IH H. inversion H as [t1 Oc|t1 y1 t' Oc L1 H']; subst; inversion Oc; subst.
    + destruct C as [C|[_ C]]; [discriminate|contradiction].
    + assert (t' = t) by congruence. subst. auto.
  - intros v y NO R S L H. exfalso. inversion H as [t1 Oc|t1 y1 t' Oc L1 H']; subst; inversion Oc; subst.
    + destruct C as [C|[_ C]]; [discriminate|contradiction].
    + apply (not_quote v t' S). rewrite R. cbn. congruence.
  - intros v y NO R S L H. exfalso. apply hasin_call in H. destruct H as (a & [<-|[<-|[]]] & H); [|exact (hasin_lit _ _ _ H)].
    inversion H as [t1 Oc|t1 y1 t' Oc L1 H']; subst; inversion Oc; subst.
    + destruct C as [C|[_ C]]; [discriminate|contradiction].
    + apply (not_quote v t' S). apply Nat.eqb_neq in R. rewrite R. congruence.
  - intros o e t y u _ _ _ IH _ _ H. apply (OccursBelow V op c n o [e; y] e); [left; reflexivity|auto].
  - intros o e l t _ _ _ IH H. apply (OccursBelow V op c n o (e :: l) e); [left; reflexivity|auto].
  - intros o e v t _ _ IH H. apply (OccursBelow V op c n o [e; Lit v] e); [left; reflexivity|auto].
Qed.

Lemma old_dec x : old x \/ ~ old x.
Proof. unfold AutoVarProofs.old. destruct (lookup x vs0); [left; discriminate|right; auto]. Qed.
Lemma reachable_new y : reachable g y -> ~ old y -> exists i, lookup y g = Some i /\ lookup y W = Some i.
Proof.
  intros R NO. destruct (lookup y g) as [i|] eqn:L; [|destruct (Hdefined y R L)]. exists i. split; [reflexivity|].
  apply Hnew; [apply Hsig; exact R| |exact L]. destruct (lookup y f) eqn:LF; [|reflexivity].
  exfalso. apply NO, Hold. split; [apply Hsig; exact R|congruence].
Qed.
Lemma reachable_step (h : functor) x y : reachable h x -> needs h x y -> reachable h y.
Proof. intros R N. apply (rt_trans _ _ _ x); [exact R|apply rt_step; exact N]. Qed.
Lemma reachable_ind' (h : functor) (P : string -> Prop) : P "returns" -> (forall x y, reachable h x -> P x -> needs h x y -> P y) ->
  forall x, reachable h x -> P x.
Proof.
  intros P0 PS x R. apply clos_rt_rtn1 in R. induction R as [|y z S R IH]; [exact P0|].
  apply (PS y z); [apply clos_rtn1_rt; exact R|exact IH|exact S].
Qed.

Lemma hasin_found c n t : hasin c n t -> forall x, reachable g x -> lookup x g = Some (Quote t) ->
  exists x' t', reachable g x' /\ lookup x' g = Some (Quote t') /\ occurs c n t'.
Proof.
  induction 1 as [t O|t y t' O L H IH]; intros x R LX; [eauto|].
  assert (RY : reachable g y) by (apply (reachable_step g x); [exact R|]; exists t; auto).
  assert (NO : ~ old y) by (intros OY; rewrite (HW y OY) in L; discriminate).
  destruct (reachable_new y RY NO) as (i & LG & LW). apply (IH y RY). congruence.
Qed.
Lemma forward x : reachable f x -> reachable g x.
Proof.
  apply (reachable_ind' f (reachable g)); [apply rt_refl|]. intros y z RF RG (e & L & O).
  destruct (Hquote y e (Hsigf y RF) L) as (t & LG & LK).
  destruct (hasin_found "V" z t (like_occurs _ _ e t LK O) y RG LG) as (x' & t' & R' & L' & O').
  apply (reachable_step g x'); [exact R'|]. exists t'. auto.
Qed.
(** Whatever a new variable has in it, is in an expression of f *)
Definition origin (x : string) : Prop := old x /\ reachable f x \/
  ~ old x /\ exists x0 e0, reachable f x0 /\ lookup x0 f = Some (Quote e0) /\
    forall t, lookup x g = Some (Quote t) -> forall c n, c = "I" \/ (c = "V" /\ old n) -> hasin c n t -> occurs c n e0.
Lemma old_quote x t : old x -> lookup x g = Some (Quote t) -> exists e, lookup x f = Some (Quote e) /\ like e t.
Proof.
  intros O L. apply Hold in O. destruct O as [NS D]. destruct (lookup x f) as [i|] eqn:LF; [|congruence].
  destruct i as [e|v|v|v ps|v].
  - destruct (Hquote x e NS LF) as (t' & LG & LK). exists e. split; [reflexivity|]. congruence.
  - rewrite (Hitem x _ NS LF) in L; [discriminate|intros; discriminate].
  - rewrite (Hitem x _ NS LF) in L; [discriminate|intros; discriminate].
  - rewrite (Hitem x _ NS LF) in L; [discriminate|intros; discriminate].
  - rewrite (Hitem x _ NS LF) in L; [discriminate|intros; discriminate].
Qed.
Lemma backward x : reachable g x -> origin x.
Proof.
  intros R. apply (reachable_ind' g origin); [| |exact R].
  - left. split; [exact Hret|apply rt_refl].
  - intros y z RG IH (t & L & O).
    assert (RZ : reachable g z) by (apply (reachable_step g y); [exact RG|]; exists t; auto).
    assert (E : exists x0 e0, reachable f x0 /\ lookup x0 f = Some (Quote e0) /\
      forall c n, c = "I" \/ (c = "V" /\ old n) -> hasin c n t -> occurs c n e0).
    { destruct IH as [[OY RF]|[_ (x0 & e0 & R0 & L0 & H0)]].
      - destruct (old_quote y t OY L) as (e & LF & LK). exists y, e. split; [exact RF|split; [exact LF|]].
        intros c n C H. exact (like_has c n C e t LK H).
      - exists x0, e0. split; [exact R0|split; [exact L0|]]. exact (H0 t L). }
    destruct E as (x0 & e0 & R0 & L0 & H0). destruct (old_dec z) as [OZ|NZ].
    + left. split; [exact OZ|]. apply (reachable_step f x0 z R0). exists e0. split; [exact L0|].
      apply H0; [right; auto|apply HHere; exact O].
    + right. split; [exact NZ|]. exists x0, e0. split; [exact R0|split; [exact L0|]].
      intros t' LZ c n C H. apply H0; [exact C|]. apply (HVar c n t z t'); [exact O| |exact H].
      destruct (reachable_new z RZ NZ) as (i & LG & LW). congruence.
Qed.

Lemma wants_forward n : wants f n -> wants g n.
Proof.
  intros (x & i & R & L & H). pose proof (forward x R) as RG. pose proof (Hsigf x R) as NS.
  destruct i as [e|v|v|v ps|v].
  - destruct (Hquote x e NS L) as (t & LG & LK).
    destruct (hasin_found "I" n t (like_occurs _ _ e t LK H) x RG LG) as (x' & t' & R' & L' & O').
    exists x', (Quote t'). auto.
  - exists x, (Object v). split; [exact RG|split; [apply Hitem; auto; intros; discriminate|exact H]].
  - exists x, (Missing v). split; [exact RG|split; [apply Hitem; auto; intros; discriminate|exact H]].
  - exists x, (SignatureObject v ps). split; [exact RG|split; [apply Hitem; auto; intros; discriminate|exact H]].
  - destruct H.
Qed.
Lemma wants_backward n : wants g n -> wants f n \/ n = "__bag".
Proof.
  intros (x & i & R & L & H). destruct i as [t|v|v|v ps|v]; try (right; exact H); [|destruct H].
  left. destruct (backward x R) as [[O RF]|[_ (x0 & e0 & R0 & L0 & H0)]].
  - destruct (old_quote x t O L) as (e & LF & LK). exists x, (Quote e). split; [exact RF|split; [exact LF|]].
    apply (like_has "I" n (or_introl eq_refl) e t LK). apply HHere. exact H.
  - exists x0, (Quote e0). split; [exact R0|split; [exact L0|]]. apply (H0 t L); [auto|apply HHere; exact H].
Qed.

Section Values.
Variables (inputs den : string -> option V).
Hypothesis Hden : denotes token eval_op with_bag b g inputs den.
Local Notation env := (fun c n => if String.eqb c "V" then den n else inputs n).
Local Notation eval := (eval token eval_op env).

Lemma den_new y i : reachable g y -> ~ old y -> lookup y W = Some i ->
  den y = match i with Quote t => eval t | _ => value_of i end.
Proof.
  intros R NO L. destruct (reachable_new y R NO) as (j & LG & LW). assert (j = i) by congruence. subst j.
  rewrite (Hden y i R LG). destruct i; reflexivity.
Qed.
Lemma map_eval l l' : Forall2 (fun e t => (forall y, occurs "V" y t -> reachable g y) -> eval e = eval t) l l' ->
  (forall t y, In t l' -> occurs "V" y t -> reachable g y) -> map eval l = map eval l'.
Proof.
  induction 1 as [|e t l l' H F IH]; intros R; [reflexivity|]. cbn [map]. f_equal.
  - apply H. intros y O. apply (R t y); [left; reflexivity|exact O].
  - apply IH. intros t' y I O. apply (R t' y); [right; exact I|exact O].
Qed.
Lemma like_eval : forall e t, like e t -> (forall y, occurs "V" y t -> reachable g y) -> eval e = eval t.
Proof.
  apply (like_ind' (fun e t => (forall y, occurs "V" y t -> reachable g y) -> eval e = eval t)); try reflexivity.
  - intros o args args' _ F R. cbn. f_equal. apply map_eval; [exact F|].
    intros t y I O. apply R. apply (OccursBelow V op "V" y o args' t); assumption.
  - intros e y t NO L LK IH R. assert (RY : reachable g y) by (apply R; constructor).
    cbn. rewrite (den_new y _ RY NO L). apply IH. intros z O.
    destruct (reachable_new y RY NO) as (i & LG & LW).
    apply (reachable_step g y z RY). exists t. split; [congruence|exact O].
  - intros v y NO RK S L R. assert (RY : reachable g y) by (apply R; constructor).
    cbn. rewrite (den_new y _ RY NO L). unfold AutoVarSpec.storable in S. rewrite RK in S. cbn in S.
    destruct (stored v); [discriminate| | | |]; symmetry; exact S.
  - intros v y NO RK S L R. assert (RY : reachable g y) by (apply R; apply (OccursBelow V op "V" y op_explode _ (var y)); [left; reflexivity|constructor]).
    cbn. rewrite (den_new y _ RY NO L). unfold AutoVarSpec.storable in S. apply Nat.eqb_neq in RK. rewrite RK in S.
    destruct S as (w & VW & EX). rewrite <- EX. 
    destruct (stored (implode v)); [discriminate| | | |]; rewrite VW; reflexivity.
  - intros o e t y u K U _ IH _ IHy R. cbn. rewrite (IH R). rewrite IHy; [|intros z O; inversion O].
    cbn. apply (proj1 Htrans); assumption.
  - intros o e l t K _ _ IH R. cbn. rewrite (IH R). apply (proj2 Htrans). left. exact K.
  - intros o e v t K _ IH R. cbn. rewrite (IH R). apply (proj2 Htrans). right. exact K.
Qed.
Lemma denotes_same : denotes token eval_op with_bag b f inputs den.
Proof.
  intros x i R L. pose proof (forward x R) as RG. pose proof (Hsigf x R) as NS.
  destruct i as [e|v|v|v ps|v].
  - destruct (Hquote x e NS L) as (t & LG & LK). rewrite (Hden x _ RG LG). symmetry. apply like_eval; [exact LK|].
    intros y O. apply (reachable_step g x y RG). exists t. auto.
  - apply (Hden x (Object v) RG). apply Hitem; auto. intros; discriminate.
  - apply (Hden x (Missing v) RG). apply Hitem; auto. intros; discriminate.
  - apply (Hden x (SignatureObject v ps) RG). apply Hitem; auto. intros; discriminate.
  - apply (Hden x (Primitive v) RG). apply Hitem; auto. intros; discriminate.
Qed.
End Values.
End Alike.

(** ** Lists of variables *)
Lemma lookup_nodup {A} (l : list (string * A)) n x : NoDup (map fst l) -> In (n, x) l -> lookup n l = Some x.
Proof.
  induction l as [|[m y] l IH]; cbn; intros ND I; [destruct I|]. inversion ND as [|? ? NI ND']; subst.
  destruct I as [E|I].
  - injection E as -> ->. rewrite String.eqb_refl. reflexivity.
  - destruct (String.eqb n m) eqn:E; [|auto]. apply String.eqb_eq in E. subst m.
    destruct NI. apply (List.in_map fst) in I. exact I.
Qed.
Lemma lookup_permutation {A} (l l' : list (string * A)) n : NoDup (map fst l) -> Permutation l l' -> lookup n l' = lookup n l.
Proof.
  intros ND P. destruct (lookup n l) as [x|] eqn:L.
  - apply lookup_nodup; [apply (Permutation_NoDup (Permutation_map fst P)); exact ND|].
    apply (Permutation_in _ P). apply lookup_in. exact L.
  - apply lookup_none. apply lookup_none in L. intros I. apply L.
    apply (Permutation_in _ (Permutation_sym (Permutation_map fst P))). exact I.
Qed.
Lemma lookup_found {A} (l : list (string * A)) n : In n (map fst l) -> exists x, lookup n l = Some x.
Proof. intros I. destruct (lookup n l) as [x|] eqn:L; [eauto|]. apply lookup_none in L. contradiction. Qed.

Section Lists.
Variables (V op : Type).
Local Notation expr := (expr V op).
Local Notation item := (item V op).
Local Notation functor := (functor V op).
Local Notation variables := (variables V op).
Local Notation expressions := (expressions V op).
Local Notation put_back := (put_back V op).

Definition kept (f : functor) (n : string) : list (string * item) :=
  if String.eqb n "__signature__" then [] else match lookup n f with Some i => [(n, i)] | None => [] end.
Lemma kept_in f l n i : In (n, i) (flat_map (kept f) l) <-> In n l /\ n <> "__signature__" /\ lookup n f = Some i.
Proof.
  rewrite in_flat_map. unfold kept. split.
  - intros (m & I & H). destruct (String.eqb m "__signature__") eqn:E; [destruct H|]. apply String.eqb_neq in E.
    destruct (lookup m f) as [j|] eqn:L; [|destruct H]. destruct H as [H|[]]. injection H as -> ->. auto.
  - intros (I & NS & L). exists n. split; [exact I|]. apply String.eqb_neq in NS. rewrite NS, L. left. reflexivity.
Qed.
Lemma kept_nodup f l : NoDup l -> NoDup (map fst (flat_map (kept f) l)).
Proof.
  induction 1 as [|n l NI ND IH]; [constructor|]. cbn [flat_map]. rewrite map_app.
  assert (H : forall m, In m (map fst (flat_map (kept f) l)) -> In m l).
  { intros m I. apply in_map_iff in I. destruct I as ([m' i] & <- & I). apply kept_in in I. apply I. }
  unfold kept at 1. destruct (String.eqb n "__signature__"); [exact IH|]. destruct (lookup n f); [|exact IH].
  cbn. constructor; [|exact IH]. intros I. apply NI, H, I.
Qed.
Lemma variables_nodup f : NoDup (map fst (variables f)).
Proof. apply kept_nodup. apply asc_nodup, sorted_names_asc. Qed.
Lemma variables_in f n i : In (n, i) (variables f) <-> n <> "__signature__" /\ lookup n f = Some i.
Proof.
  unfold AutoVarModel.variables. rewrite (kept_in f _ n i). rewrite sorted_names_in. split; [tauto|]. intros [A B].
  split; [|auto]. apply lookup_in in B. apply (List.in_map fst) in B. exact B.
Qed.
Lemma variables_lookup f n : lookup n (variables f) = if String.eqb n "__signature__" then None else lookup n f.
Proof.
  destruct (lookup n (variables f)) as [i|] eqn:L.
  - apply lookup_in, variables_in in L. destruct L as [NS L]. apply String.eqb_neq in NS. rewrite NS. auto.
  - destruct (String.eqb n "__signature__") eqn:E; [reflexivity|]. apply String.eqb_neq in E.
    destruct (lookup n f) as [i|] eqn:LF; [|reflexivity]. apply lookup_none in L. destruct L.
    assert (I : In (n, i) (variables f)) by (apply variables_in; auto). apply (List.in_map fst) in I. exact I.
Qed.
Lemma expressions_in vs n e : In (n, e) (expressions vs) <-> In (n, Quote e) vs.
Proof.
  unfold AutoVarModel.expressions. rewrite in_flat_map. split.
  - intros ([m i] & I & H). cbn in H. destruct i; try contradiction. destruct H as [H|[]]. injection H as -> ->. exact I.
  - intros I. exists (n, Quote e). split; [exact I|left; reflexivity].
Qed.
Lemma expressions_nodup vs : NoDup (map fst vs) -> NoDup (map fst (expressions vs)).
Proof.
  induction vs as [|[n i] vs IH]; cbn; intros ND; [constructor|]. inversion ND as [|? ? NI ND']; subst.
  destruct i; cbn; auto. constructor; [|auto]. intros I. apply NI. apply in_map_iff in I. destruct I as ([m e'] & E & I).
  cbn in E. subst m. apply expressions_in in I. apply (List.in_map fst) in I. exact I.
Qed.
Lemma put_back_lookup l : NoDup (map fst l) -> forall vs n,
  lookup n (put_back l vs) = match lookup n l with Some t => Some (Quote t) | None => lookup n vs end.
Proof.
  induction l as [|[m t] l IH]; cbn [map fst]; intros ND vs n; [reflexivity|]. inversion ND as [|? ? NI ND']; subst.
  unfold AutoVarModel.put_back. cbn [fold_left fst snd]. change (fold_left _ l ?X) with (put_back l X). rewrite (IH ND').
  cbn [lookup]. destruct (String.eqb n m) eqn:E.
  - apply String.eqb_eq in E. subst m. apply lookup_none in NI. rewrite NI. reflexivity.
  - destruct (lookup n l); [reflexivity|]. rewrite erase_lookup, E. reflexivity.
Qed.
Lemma put_back_nodup l : forall vs, NoDup (map fst vs) -> NoDup (map fst (put_back l vs)).
Proof.
  induction l as [|[m t] l IH]; intros vs ND; [exact ND|]. unfold AutoVarModel.put_back. cbn [fold_left fst snd].
  change (fold_left _ l ?X) with (put_back l X). apply IH. cbn. constructor; [|apply erase_nodup; exact ND].
  apply lookup_none. rewrite erase_lookup, String.eqb_refl. reflexivity.
Qed.
Lemma combine_lookup (R : expr -> expr -> Prop) (l : list (string * expr)) news n : Forall2 R (map snd l) news ->
  match lookup n l with
  | Some e => exists t, lookup n (combine (map fst l) news) = Some t /\ R e t
  | None => lookup n (combine (map fst l) news) = None
  end.
Proof.
  revert news. induction l as [|[m e] l IH]; cbn; intros news F; [reflexivity|]. inversion F as [|? t ? ts RT F']; subst. cbn.
  destruct (String.eqb n m); [eauto|]. apply IH. exact F'.
Qed.
Lemma combine_names (R : expr -> expr -> Prop) (l : list (string * expr)) news : Forall2 R (map snd l) news ->
  map fst (combine (map fst l) news) = map fst l.
Proof.
  revert news. induction l as [|[m e] l IH]; cbn; intros news F; [reflexivity|]. inversion F as [|? t ? ts RT F']; subst. cbn.
  f_equal. apply IH. exact F'.
Qed.
End Lists.

(** ** Calls *)
Section Main.
Variables (V op : Type).
Local Notation expr := (expr V op).
Local Notation item := (item V op).
Local Notation functor := (functor V op).
Variable same : expr -> expr -> bool.
Variable kind : op -> op_kind.
Variables is_slice is_simple is_unspecified : V -> bool.
Variable text_of : V -> string.
Variable rank : V -> nat.
Variable num : nat -> V.
Variable implode : V -> V.
Variables op_explode op_with_bag : op.
Variable stored : V -> item.
Variable self_default : V.
Variable as_object : list (param V) -> V.
Variable arrange : list (string * item) -> list (string * item).
Variables (bag : Type) (token : V) (eval_op : op -> list (option V) -> option V) (with_bag : bag -> V -> V).
Variables (bag_value : bag -> V) (tuple_value : list V -> V) (named_value : list (string * V) -> V).
Variable b : bag.
Hypothesis same_spec : forall x y, same x y = true <-> x = y.
Hypothesis simple_items : forall v, is_simple v = true -> rank v = 0.
Hypothesis arrange_spec : forall l, Permutation l (arrange l).
Hypothesis op_with_bag_spec : forall b v, eval_op op_with_bag [Some v; Some (bag_value b)] = Some (with_bag b v).
Hypothesis Htrans : transparent kind is_unspecified eval_op.
Variable f : functor.
Hypothesis Hvalid : valid f.
Hypothesis Hclosed : closed f.
Hypothesis Hlocated : located kind f.
Hypothesis Hnamed : named_well kind text_of f.
Hypothesis Hstorable : storable_literals is_slice rank num implode op_explode stored eval_op with_bag b f.
Variable extra : expr -> bool.
Local Notation like := (like V op kind is_unspecified rank num implode op_explode stored bag eval_op with_bag b (variables V op f)).
Local Notation inv := (inv V op rank num implode op_explode stored bag eval_op with_bag b (variables V op f)).
Local Notation old := (old V op (variables V op f)).
Local Notation auto := (auto_variables V op same kind is_slice is_simple is_unspecified text_of rank num implode op_explode stored self_default as_object arrange).

Lemma old_iff x : old x <-> x <> "__signature__" /\ lookup x f <> None.
Proof.
  unfold AutoVarProofs.old. rewrite variables_lookup. destruct (String.eqb x "__signature__") eqn:E.
  - apply String.eqb_eq in E. split; [congruence|]. intros [H _]. contradiction.
  - apply String.eqb_neq in E. tauto.
Qed.
Lemma old_ret : old "returns".
Proof. apply old_iff. split; [discriminate|]. destruct Hvalid as ((i & L & _) & _). congruence. Qed.
Lemma reachable_sig x : reachable f x -> x <> "__signature__".
Proof.
  apply (reachable_ind' V op f (fun x => x <> "__signature__")); [discriminate|]. intros y z _ _ (e & L & O).
  apply (Hclosed z). exists y, e. split; [exact L|]. clear L. induction O as [|o args a I O IH]; [constructor|].
  apply (PartBelow V op _ o args a I IH).
Qed.
Lemma inv_start : inv [] (mkState V op (variables V op f) [] []).
Proof.
  constructor; cbn.
  - auto.
  - intros n i O L. destruct O. congruence.
  - intros n H. destruct (H eq_refl).
  - rewrite variables_lookup. reflexivity.
  - apply variables_nodup.
  - intros e [].
Qed.

Definition roots_of : list expr := map snd (expressions V op (variables V op f)).
Definition result_of (l : list (expr * expr)) (s : state V op) (g : functor) : Prop :=
  transform V op same kind is_slice is_simple is_unspecified text_of rank num implode op_explode stored extra
    (all_tags V op same kind extra roots_of) (post_order V op same roots_of) [] (mkState V op (variables V op f) [] []) = Done (l, s)
  /\ forall x e, lookup x g = Some (Quote e) -> In e (map snd l) \/ (~ old x /\ lookup x (vars V op s) = Some (Quote e)).
Lemma auto_made g : auto f extra = Done g -> exists W,
  (exists l s, result_of l s g /\ forall x, x <> "__signature__" -> lookup x (vars V op s) <> None -> lookup x g <> None) /\
  (forall x, old x -> lookup x W = None) /\
  (forall x e, x <> "__signature__" -> lookup x f = Some (Quote e) -> exists t, lookup x g = Some (Quote t) /\ like W e t) /\
  (forall x i, x <> "__signature__" -> lookup x f = Some i -> (forall e, i <> Quote e) -> lookup x g = Some i) /\
  (forall x i, x <> "__signature__" -> lookup x f = None -> lookup x g = Some i -> lookup x W = Some i) /\
  has_attr "returns" g /\ acyclic g /\ plain g /\ defined g /\ (forall x, reachable g x -> x <> "__signature__") /\
  lookup "__signature__" g = lookup "__signature__" f.
Proof.
  unfold auto_variables. intros E. destruct (is_functor f); cbn [negb] in E; [|discriminate].
  destruct Hvalid as (_ & _ & _ & _ & sv & ps & LS & VP & _).
  change signature_attr with "__signature__" in E. rewrite LS in E.
  set (vs := variables V op f) in *. set (exprs := expressions V op vs) in *.
  match type of E with then_ ?X _ = _ => destruct X as [[l s]| |] eqn:T end; cbn [then_] in E; try discriminate.
  destruct (all_new V op same (map snd exprs) l) as [news|] eqn:AN; [|discriminate].
  assert (Parts : forall e, In e (post_order V op same (map snd exprs)) -> part_of e f).
  { intros e I. apply post_order_parts in I. destruct I as (r & I & P). apply in_map_iff in I. destruct I as ([x r'] & EQ & I).
    cbn in EQ. subst r'. apply expressions_in, variables_in in I. exists x, r. split; [apply I|exact P]. }
  assert (HC : forall y, part_of (Input "V" y) f -> AutoVarProofs.old V op vs y) by (intros y P; apply old_iff; apply Hclosed; exact P).
  destruct (transform_ok V op same kind is_slice is_simple is_unspecified text_of rank num implode op_explode stored bag eval_op with_bag b
              same_spec vs simple_items extra (all_tags V op same kind extra (map snd exprs)) f HC Hlocated Hnamed Hstorable
              (post_order V op same (map snd exprs)) [] [] _ l s inv_start Parts (fun e t H => match H with end) T) as (W & _ & I & LL).
  apply (all_new_ok V op same same_spec) in AN.
  assert (F : Forall2 (like W) (map snd exprs) news) by (eapply Forall2_P; [|exact AN]; intros; apply LL; assumption).
  assert (NDX : NoDup (map fst exprs)) by (apply expressions_nodup, variables_nodup).
  assert (NDC : NoDup (map fst (combine (map fst exprs) news))) by (rewrite (combine_names V op _ exprs news F); exact NDX).
  set (back := put_back V op (combine (map fst exprs) news) (vars V op s)) in *.
  assert (NDB : NoDup (map fst back)) by (apply put_back_nodup; apply I).
  assert (LB : forall x, lookup x back = match lookup x (combine (map fst exprs) news) with Some t => Some (Quote t) | None => lookup x (vars V op s) end)
    by (intros x; apply put_back_lookup; exact NDC).
  assert (LX : forall x e, lookup x exprs = Some e <-> x <> "__signature__" /\ lookup x f = Some (Quote e)).
  { intros x e. split.
    - intros L. apply lookup_in, expressions_in, variables_in in L. exact L.
    - intros L. apply lookup_nodup; [exact NDX|]. apply expressions_in, variables_in. exact L. }
  change returns with "returns" in E.
  destruct (lookup "returns" back) as [r|] eqn:LR; [|discriminate].
  match type of E with (match ?X with _ => _ end) = _ => destruct X as [g'|] eqn:C end; [|discriminate].
  assert (g' = g) by congruence. subst g'. clear E.
  set (rest := erase V op "returns" back) in *.
  assert (NDR : NoDup (map fst rest)) by (apply erase_nodup; exact NDB).
  assert (LA : forall x, lookup x (arrange rest) = if String.eqb x "returns" then None else lookup x back).
  { intros x. rewrite (lookup_permutation rest (arrange rest) x NDR (arrange_spec rest)). apply erase_lookup. }
  assert (NDA : NoDup (map fst (arrange rest))) by (apply (Permutation_NoDup (Permutation_map fst (arrange_spec rest))); exact NDR).
  assert (SB : lookup "__signature__" back = None).
  { rewrite LB. pose proof (combine_lookup V op (like W) exprs news "__signature__" F) as CL.
    destruct (lookup "__signature__" exprs) as [e|] eqn:LE; [apply LX in LE; destruct (proj1 LE eq_refl)|]. rewrite CL. apply I. }
  assert (NM : map fst (map (fun x : string * item => (fst x, (0, snd x))) (arrange rest)) = map fst (arrange rest)) by (rewrite map_map; reflexivity).
  assert (ND : NoDup ("returns" :: map fst (map (fun x : string * item => (fst x, (0, snd x))) (arrange rest)) ++ ["__signature__"])).
  { rewrite NM. constructor.
    - intros J. apply in_app_or in J. destruct J as [J|[J|[]]]; [|discriminate].
      apply lookup_found in J. destruct J as (x & J). rewrite LA in J. discriminate.
    - apply (Permutation_NoDup (l := "__signature__" :: map fst (arrange rest))); [apply Permutation_cons_append|].
      constructor; [|exact NDA]. intros J. apply lookup_found in J. destruct J as (x & J). rewrite LA in J.
      change (String.eqb "__signature__" "returns") with false in J. cbn iota in J. congruence. }
  apply (create_iff V op self_default as_object _ _ _ g ND) in C.
  destruct (created_signature V op self_default as_object _ _ _ g ND C) as (CR & CA & CP & CD & _).
  destruct C as (_ & _ & _ & _ & (sg & SF & EG) & _ & _ & CREACH).
  assert (ES : sg = SignatureObject sv ps).
  { destruct SF as [(v' & ps' & GV & _ & ->)|(v' & nm & ps' & GV & _)]; cbn in GV; [reflexivity|discriminate]. }
  cbn [snd] in EG. rewrite map_map in EG. cbn [fst snd] in EG.
  assert (MID : map (fun x : string * item => (fst x, snd x)) (arrange rest) = arrange rest)
    by (rewrite <- (map_id (arrange rest)) at 2; apply map_ext; intros [? ?]; reflexivity).
  rewrite MID in EG.
  assert (LG : forall x, x <> "__signature__" -> lookup x g = lookup x back).
  { intros x NS. rewrite EG. cbn [lookup]. destruct (String.eqb x "returns") eqn:EX.
    - apply String.eqb_eq in EX. subst x. symmetry. exact LR.
    - rewrite lookup_app, LA, EX. destruct (lookup x back); [reflexivity|]. cbn [lookup].
      apply String.eqb_neq in NS. rewrite NS. reflexivity. }
  exists W. split.
  { exists l, s. split; [split; [exact T|]|].
    - intros x e LE. destruct (String.eqb_spec x "__signature__") as [->|NS].
      { exfalso. rewrite EG in LE. cbn [lookup] in LE. change (String.eqb "__signature__" "returns") with false in LE. cbn iota in LE.
        rewrite lookup_app, LA in LE. change (String.eqb "__signature__" "returns") with false in LE. cbn iota in LE. rewrite SB, ES in LE. discriminate. }
      rewrite (LG x NS), LB in LE. pose proof (combine_lookup V op (fun e t => In (e, t) l) exprs news x AN) as CL.
      destruct (lookup x exprs) as [e0|] eqn:LE0.
      + destruct CL as (t & CT & IT). rewrite CT in LE. assert (t = e) by congruence. subst t. left. apply (List.in_map snd) in IT. exact IT.
      + rewrite CL in LE. right. split; [|exact LE]. intros O. apply old_iff in O. destruct O as [_ O].
        assert (LV : lookup x (vars V op s) = lookup x vs) by (apply (i_old _ _ _ _ _ _ _ _ _ _ _ _ _ _ I x); apply old_iff; auto).
        rewrite LV in LE. unfold vs in LE. rewrite variables_lookup in LE. apply String.eqb_neq in NS. rewrite NS in LE.
        apply String.eqb_neq in NS. pose proof (proj2 (LX x e) (conj NS LE)). congruence.
    - intros x NS LV. rewrite (LG x NS), LB. destruct (lookup x (combine (map fst exprs) news)); [discriminate|exact LV]. }
  split; [intros x O; apply (i_old _ _ _ _ _ _ _ _ _ _ _ _ _ _ I x O)|].
  split; [|split; [|split; [|split; [exact CR|split; [exact CA|split; [exact CP|split; [exact CD|split]]]]]]].
  - intros x e NS L. rewrite (LG x NS), LB. pose proof (combine_lookup V op (like W) exprs news x F) as CL.
    rewrite (proj2 (LX x e) (conj NS L)) in CL. destruct CL as (t & -> & LK). eauto.
  - intros x i NS L NQ. rewrite (LG x NS), LB. pose proof (combine_lookup V op (like W) exprs news x F) as CL.
    destruct (lookup x exprs) as [e|] eqn:LE; [apply LX in LE; destruct LE as [_ LE]; destruct (NQ e); congruence|]. rewrite CL.
    assert (O : old x) by (apply old_iff; split; [exact NS|congruence]).
    rewrite (proj1 (i_old _ _ _ _ _ _ _ _ _ _ _ _ _ _ I x O)). unfold vs. rewrite variables_lookup.
    apply String.eqb_neq in NS. rewrite NS. exact L.
  - intros x i NS L LGX. rewrite (LG x NS), LB in LGX. pose proof (combine_lookup V op (like W) exprs news x F) as CL.
    destruct (lookup x exprs) as [e|] eqn:LE; [apply LX in LE; destruct LE as [_ LE]; congruence|]. rewrite CL in LGX.
    apply (i_new _ _ _ _ _ _ _ _ _ _ _ _ _ _ I x i); [|exact LGX]. intros O. apply old_iff in O. destruct O; congruence.
  - intros x R. destruct (CREACH x R) as [->|J]; [discriminate|]. change (In x (map fst (map (fun x : string * item => (fst x, (0, snd x))) (arrange rest)))) in J. rewrite NM in J. apply lookup_found in J. destruct J as (i & J).
    intros ->. rewrite LA in J. change (String.eqb "__signature__" "returns") with false in J. cbn iota in J. congruence.
  - rewrite LS, EG. cbn [lookup]. change (String.eqb "__signature__" "returns") with false. cbn iota.
    rewrite lookup_app, LA. change (String.eqb "__signature__" "returns") with false. cbn iota. rewrite SB, ES. reflexivity.
Qed.

Local Notation calls := (calls token eval_op with_bag bag_value tuple_value named_value b).
Local Notation call := (call op_with_bag token eval_op with_bag bag_value tuple_value named_value b).

Lemma auto_calls g pos kw v : auto f extra = Done g -> (calls g pos kw v <-> calls f pos kw v).
Proof.
  intros E. destruct (auto_made g E) as (W & _ & HW & Hq & Hi & Hn & GR & GA & GP & GD & GS & GSIG).
  destruct Hvalid as (VR & VA & VPL & VD & sv & ps & LS & VP & NB).
  assert (WF : forall n, wants f n -> wants g n)
    by (intros n; apply (wants_forward V op kind is_unspecified rank num implode op_explode stored bag eval_op with_bag b _ W f g old_iff HW Hq Hi Hn GD GS reachable_sig)).
  assert (WB : forall n, wants g n -> wants f n \/ n = "__bag")
    by (intros n; apply (wants_backward V op kind is_unspecified rank num implode op_explode stored bag eval_op with_bag b _ W f g old_iff HW Hq Hi Hn old_ret GD GS)).
  assert (DS : forall inputs den, denotes token eval_op with_bag b g inputs den -> denotes token eval_op with_bag b f inputs den)
    by (intros inputs den; apply (denotes_same V op kind is_unspecified rank num implode op_explode stored bag token eval_op with_bag b _ W f g old_iff HW Hq Hi Hn GD GS reachable_sig Htrans)).
  assert (GF : forall u, calls g pos kw u -> calls f pos kw u).
  { intros u (sv' & ps' & r & den & _ & L & _ & _ & _ & _ & B & WI & WN & D & R).
    assert (sv' = sv) by congruence. assert (ps' = ps) by congruence. subst sv' ps'.
    exists sv, ps, r, den. repeat (split; [assumption|]). split; [intros n H; apply WI, WF, H|].
    split; [intros _; exact NB|]. split; [apply DS; exact D|exact R]. }
  assert (UN : forall r r' den den', binds (with_bag b) ps pos kw r -> binds (with_bag b) ps pos kw r' ->
      denotes token eval_op with_bag b f (inputs_of bag_value tuple_value named_value b ps r) den ->
      denotes token eval_op with_bag b f (inputs_of bag_value tuple_value named_value b ps r') den' -> den "returns" = den' "returns").
  { intros r r' den den' B B' D D'. assert (r = r') by (apply (binds_unique V bag with_bag b ps pos kw r r' VP B B')). subst r'.
    refine (denotes_unique V op f token eval_op bag with_bag b _ den den' VR _ VA VPL VD D D' "returns" (rt_refl _ _ _)).
    exists (SignatureObject sv ps). split; [exact LS|intros; discriminate]. }
  split; [apply GF|]. intros C.
  pose proof (call_cases V op bag op_with_bag token eval_op with_bag bag_value tuple_value named_value op_with_bag_spec b g pos kw) as CC.
  destruct C as (sv' & ps' & r & den & _ & L & _ & _ & _ & _ & B & WI & WN & D & R).
  assert (sv' = sv) by congruence. assert (ps' = ps) by congruence. subst sv' ps'.
  destruct (call g (pos ++ map snd kw) (map fst kw)) as [u|e].
  - pose proof (GF u CC) as (sv' & ps' & r' & den' & _ & L' & _ & _ & _ & _ & B' & _ & _ & D' & R').
    assert (sv' = sv) by congruence. assert (ps' = ps) by congruence. subst sv' ps'.
    pose proof (UN r r' den den' B B' D D') as U. assert (u = v) by congruence. subst u. exact CC.
  - exfalso. destruct e; cbn in CC; try contradiction.
    + apply CC. split; [exact GR|]. exists (SignatureObject sv ps). split; [congruence|intros; discriminate].
    + destruct CC as (x & q & RX & LX & SQ). exact (GP x q RX LX SQ).
    + exact (GA name (proj1 CC) (proj2 CC)).
    + destruct CC as (i & EI & NI). destruct (NI sv ps). congruence.
    + destruct CC as (v' & ps' & LG & [NV|[_ NBI]]); assert (ps' = ps) by congruence; subst ps'; [contradiction|exact (NBI r B)].
    + exact (GD name (proj1 CC) (proj2 CC)).
    + destruct CC as (-> & _ & v' & ps' & LG & IB). assert (ps' = ps) by congruence. subst ps'. contradiction.
    + destruct CC as (v' & ps' & n & LG & WG & NN & NI). assert (ps' = ps) by congruence. subst ps'.
      destruct (WB n WG) as [WFN|]; [|contradiction]. destruct (WI n WFN); contradiction.
    + destruct CC as (v' & ps' & r' & den' & LG & _ & B' & D' & R'). assert (ps' = ps) by congruence. subst ps'.
      pose proof (UN r r' den den' B B' D (DS _ _ D')) as U. congruence.
Qed.

Theorem auto_call g pos kw v : auto f extra = Done g ->
  (call g (pos ++ map snd kw) (map fst kw) = Ok v <-> call f (pos ++ map snd kw) (map fst kw) = Ok v).
Proof.
  intros E. rewrite !(call_iff V op bag op_with_bag token eval_op with_bag bag_value tuple_value named_value op_with_bag_spec).
  apply auto_calls. exact E.
Qed.

Lemma auto_attributes g : auto f extra = Done g -> forall x i, lookup x f = Some i ->
  match i with Quote _ => x <> "__signature__" -> exists e, lookup x g = Some (Quote e) | _ => lookup x g = Some i end.
Proof.
  intros E x i L. destruct (auto_made g E) as (W & _ & _ & Hq & Hi & _ & _ & _ & _ & _ & _ & GSIG).
  destruct (String.eqb x "__signature__") eqn:X.
  - apply String.eqb_eq in X. subst x. destruct i; try congruence; rewrite GSIG; exact L.
  - apply String.eqb_neq in X. destruct i as [e|v|v|v ps|v].
    + intros _. destruct (Hq x e X L) as (t & LG & _). eauto.
    + apply Hi; [exact X|exact L|intros; discriminate].
    + apply Hi; [exact X|exact L|intros; discriminate].
    + apply Hi; [exact X|exact L|intros; discriminate].
    + apply Hi; [exact X|exact L|intros; discriminate].
Qed.
End Main.
