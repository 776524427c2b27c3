(** Automatic variables: what the transformation of expressions keeps. *)
From Coq Require DecimalString DecimalNat.
From Coq Require Import String List Bool Arith Lia Ascii.
From Verif Require Import SignatureModel SignatureSpec FunctorModel FunctorSpec FunctorProofs FunctorCallProofs AutoVarModel AutoVarSpec.
Import ListNotations.
Local Open Scope string_scope.
Local Open Scope nat_scope.
Local Open Scope list_scope.

(** ** Names *)
Lemma append_inj (p : string) : forall a b, (p ++ a = p ++ b)%string -> a = b.
Proof. induction p as [|c p IH]; intros a b; cbn; [auto|]. intros E. injection E as E. auto. Qed.
Lemma numbered_inj p j k : numbered p j = numbered p k -> j = k.
Proof.
  unfold numbered. intros E. apply append_inj in E. apply (append_inj "_") in E.
  assert (Q : forall u, DecimalString.NilEmpty.uint_of_string (DecimalString.NilEmpty.string_of_uint u) = Some u) by (exact DecimalString.NilEmpty.usu).
  apply (f_equal DecimalString.NilEmpty.uint_of_string) in E. rewrite !Q in E. injection E as E.
  apply (f_equal Nat.of_uint) in E. rewrite !DecimalNat.Unsigned.of_to in E. exact E.
Qed.
Lemma numbered_aux p k n : numbered p k = numbered "_aux" n -> p <> "_aux" -> String.prefix "_aux" p = true.
Proof.
  unfold numbered. intros E N.
  destruct p as [|? p]; [cbn in E; injection E as E; destruct (Nat.to_uint k); discriminate|]. cbn in E. injection E as -> E.
  do 3 (destruct p as [|? p]; [cbn in E; discriminate|]; cbn in E; injection E as -> E).
  destruct p; reflexivity.
Qed.
Lemma numbered_signature p k : numbered p k <> "__signature__".
Proof.
  unfold numbered.
  assert (NN : Nat.to_uint k <> Decimal.Nil).
  { intros E. pose proof (DecimalNat.Unsigned.of_to k) as Q. rewrite E in Q. cbn in Q. subst k. discriminate. }
  revert NN. generalize (Nat.to_uint k). intros u NN E.
  assert (D : forall s : string, s = DecimalString.NilEmpty.string_of_uint u -> In s [""; "_"; "signature__"; "_signature__"] -> False).
  { intros s -> [H|[H|[H|[H|[]]]]]; destruct u; try discriminate. apply NN. reflexivity. }
  repeat match type of E with
         | (?p ++ _)%string = _ => is_var p; destruct p as [|? p]; cbn in E;
             [first [discriminate E | injection E as E; eapply D; [symmetry; exact E|cbn; tauto]]
             |first [discriminate E | injection E as ? E; subst]]
         end.
Qed.

Lemma free_number_spec {V op} fuel p : forall k (vs : list (string * item V op)) n, free_number V op fuel p k vs = Some n ->
  k <= n /\ lookup (numbered p n) vs = None.
Proof.
  induction fuel as [|fuel IH]; intros k vs n; cbn; [discriminate|]. unfold taken.
  destruct (lookup (numbered p k) vs) eqn:L.
  - intros E. destruct (IH _ _ _ E). split; [lia|assumption].
  - intros E. injection E as <-. auto.
Qed.

Section Auto.
Variables (V op : Type).
Local Notation expr := (expr V op).
Local Notation item := (item V op).
Local Notation functor := (functor V op).
Variable same : expr -> expr -> bool.
Variable kind : op -> op_kind.
Variables is_slice is_simple is_unspecified : V -> bool.
Variable text_of : V -> string.
Variable rank : V -> nat.
Variable num : nat -> V.
Variable implode : V -> V.
Variable op_explode : op.
Variable stored : V -> item.
Variables (bag : Type) (eval_op : op -> list (option V) -> option V) (with_bag : bag -> V -> V) (b : bag).
Hypothesis same_spec : forall x y, same x y = true <-> x = y.
Local Notation var := (AutoVarModel.var V op).
Local Notation storable := (storable rank num implode op_explode stored eval_op with_bag b).
Local Notation value_of := (value_of with_bag b).

Variable vs0 : list (string * item).
Definition old (n : string) : Prop := lookup n vs0 <> None.

Lemma mem_in e l : mem V op same e l = true <-> In e l.
Proof.
  unfold mem. rewrite existsb_exists. split.
  - intros (x & I & E). apply same_spec in E. subst. exact I.
  - intros I. exists e. split; [exact I|]. apply same_spec. reflexivity.
Qed.

(** ** The new expression has the same meaning *)
Section Like.
Variable W : list (string * item).
Inductive like : expr -> expr -> Prop :=
| LLit v : like (Lit v) (Lit v)
| LInput c n : (c = "V" -> old n) -> like (Input c n) (Input c n)
| LToken : like Token Token
| LLeaf k : like (Leaf k) (Leaf k)
| LPlaceholder k : like (Placeholder k) (Placeholder k)
| LCall o args args' : Forall2 like args args' -> like (Call o args) (Call o args')
| LVar e y t : ~ old y -> lookup y W = Some (Quote t) -> like e t -> like e (var y)
| LItem v y : ~ old y -> rank v = 0 -> storable v -> lookup y W = Some (stored v) -> like (Lit v) (var y)
| LExplode v y : ~ old y -> rank v <> 0 -> storable v -> lookup y W = Some (stored (implode v)) ->
    like (Lit v) (Call op_explode [var y; Lit (num (rank v))])
| LSlice o e t y u : kind o = KSlice -> is_unspecified u = true -> like e t -> like y (Lit u) -> like (Call o [e; y]) t
| LLocation o e l t : kind o = KLocation -> (forall y, In y l -> exists v, y = Lit v) -> like e t -> like (Call o (e :: l)) t
| LName o e v t : kind o = KName -> like e t -> like (Call o [e; Lit v]) t.

Section Ind.
Variable P : expr -> expr -> Prop.
Hypothesis H1 : forall v, P (Lit v) (Lit v).
Hypothesis H2 : forall c n, (c = "V" -> old n) -> P (Input c n) (Input c n).
Hypothesis H3 : P Token Token.
Hypothesis H4 : forall k, P (Leaf k) (Leaf k).
Hypothesis H5 : forall k, P (Placeholder k) (Placeholder k).
Hypothesis H6 : forall o args args', Forall2 like args args' -> Forall2 P args args' -> P (Call o args) (Call o args').
Hypothesis H7 : forall e y t, ~ old y -> lookup y W = Some (Quote t) -> like e t -> P e t -> P e (var y).
Hypothesis H8 : forall v y, ~ old y -> rank v = 0 -> storable v -> lookup y W = Some (stored v) -> P (Lit v) (var y).
Hypothesis H9 : forall v y, ~ old y -> rank v <> 0 -> storable v -> lookup y W = Some (stored (implode v)) ->
    P (Lit v) (Call op_explode [var y; Lit (num (rank v))]).
Hypothesis H10 : forall o e t y u, kind o = KSlice -> is_unspecified u = true -> like e t -> P e t -> like y (Lit u) -> P y (Lit u) -> P (Call o [e; y]) t.
Hypothesis H11 : forall o e l t, kind o = KLocation -> (forall y, In y l -> exists v, y = Lit v) -> like e t -> P e t -> P (Call o (e :: l)) t.
Hypothesis H12 : forall o e v t, kind o = KName -> like e t -> P e t -> P (Call o [e; Lit v]) t.
Fixpoint like_rect' e t (H : like e t) {struct H} : P e t.
Proof.
  destruct H.
  - apply H1.
  - apply H2. exact H.
  - apply H3.
  - apply H4.
  - apply H5.
  - apply H6; [exact H|]. induction H; constructor; [apply like_rect'; assumption|assumption].
  - apply (H7 e y t H H0 H13). apply like_rect'. exact H13.
  - exact (H8 v y H H0 H13 H14).
  - exact (H9 v y H H0 H13 H14).
  - apply (H10 o e t y u H H0 H13); [apply like_rect'; exact H13|exact H14|apply like_rect'; exact H14].
  - apply (H11 o e l t H H0 H13). apply like_rect'. exact H13.
  - apply (H12 o e v t H H0). apply like_rect'. exact H0.
Qed.
End Ind.
End Like.

Definition grows (W W' : list (string * item)) : Prop := forall y i, lookup y W = Some i -> lookup y W' = Some i.
Lemma grows_refl W : grows W W. Proof. intros y i H. exact H. Qed.
Lemma grows_trans W W' W'' : grows W W' -> grows W' W'' -> grows W W''.
Proof. intros A B y i H. apply B, A, H. Qed.
Lemma grows_cons W n i : lookup n W = None -> grows W ((n, i) :: W).
Proof. intros H y j L. cbn. destruct (String.eqb_spec y n) as [->|]; congruence. Qed.

Lemma Forall2_P {A B} (P Q : A -> B -> Prop) l l' : (forall a b, P a b -> Q a b) -> Forall2 P l l' -> Forall2 Q l l'.
Proof. intros H F. induction F; constructor; auto. Qed.

Lemma like_mono W W' : grows W W' -> forall e t, like W e t -> like W' e t.
Proof.
  intros G. apply (like_rect' W (like W')); intros.
  - constructor.
  - constructor. assumption.
  - constructor.
  - constructor.
  - constructor.
  - constructor. assumption.
  - apply (LVar W' e y t H); [apply G; assumption|assumption].
  - apply LItem; auto.
  - apply LExplode; auto.
  - apply (LSlice W' o e t y u); assumption.
  - apply LLocation; assumption.
  - apply LName; assumption.
Qed.

Lemma like_rename W W' m n i : grows W W' -> ~ old m -> ~ old n -> lookup m W = Some i -> (forall q, i <> Quote q) -> lookup n W' = Some i ->
  forall e t, like W e t -> like W' e (rename V op m n t).
Proof.
  intros G OM ON LM NQ LN. apply (like_rect' W (fun e t => like W' e (rename V op m n t))); intros; cbn.
  - constructor.
  - destruct (String.eqb_spec c "V") as [->|NC]; cbn.
    + destruct (String.eqb_spec n0 m) as [->|NM]; [exfalso; apply OM; auto|]. constructor. assumption.
    + constructor. assumption.
  - constructor.
  - constructor.
  - constructor.
  - constructor. clear H. induction H0; cbn; constructor; assumption.
  - destruct (String.eqb_spec y m) as [->|NM]; cbn; [exfalso; rewrite LM in H0; injection H0 as ->; apply (NQ t); reflexivity|].
    apply (LVar W' e y t H); [apply G; assumption|]. apply (like_mono W W' G). assumption.
  - destruct (String.eqb_spec y m) as [->|NM]; cbn.
    + apply LItem; auto. congruence.
    + apply LItem; auto.
  - destruct (String.eqb_spec y m) as [->|NM]; cbn.
    + apply LExplode; auto. congruence.
    + apply LExplode; auto.
  - apply (LSlice W' o e _ y u); assumption.
  - apply LLocation; assumption.
  - apply LName; assumption.
Qed.

(** ** The state *)
Local Notation state := (AutoVarModel.state V op).
Local Notation vars := (AutoVarModel.vars V op).
Local Notation counters := (AutoVarModel.counters V op).
Local Notation aux := (AutoVarModel.aux V op).
Definition count (s : state) : nat := match lookup "_aux" (counters s) with Some k => k | None => 0 end.

Definition aux_ok (W : list (string * item)) (s : state) (e : expr) : Prop :=
  exists v m k, storable v /\ ~ old m /\ m = numbered "_aux" k /\ k < count s
  /\ (rank v = 0 /\ e = var m /\ lookup m W = Some (stored v)
      \/ rank v <> 0 /\ e = Call op_explode [var m; Lit (num (rank v))] /\ lookup m W = Some (stored (implode v))).
Record inv (W : list (string * item)) (s : state) : Prop := {
  i_old : forall n, old n -> lookup n (vars s) = lookup n vs0 /\ lookup n W = None;
  i_new : forall n i, ~ old n -> lookup n (vars s) = Some i -> lookup n W = Some i;
  i_dom : forall n, lookup n W <> None -> lookup n (vars s) <> None \/ exists k, k < count s /\ n = numbered "_aux" k;
  i_sig : lookup "__signature__" (vars s) = None;
  i_nodup : NoDup (map fst (vars s));
  i_aux : forall e, In e (aux s) -> aux_ok W s e }.

Definition fresh (W : list (string * item)) (s : state) (n : string) : Prop :=
  lookup n (vars s) = None /\ lookup n W = None /\ n <> "__signature__".
Lemma fresh_new W s n : inv W s -> fresh W s n -> ~ old n.
Proof. intros I (A & _ & _) O. destruct (i_old W s I n O) as [E _]. apply O. congruence. Qed.
Lemma plain_fresh W s n : inv W s -> lookup n (vars s) = None -> n <> "__signature__" -> String.prefix "_aux" n = false -> fresh W s n.
Proof.
  intros I L NS P. split; [exact L|]. split; [|exact NS]. destruct (lookup n W) eqn:E; [|reflexivity].
  destruct (i_dom W s I n) as [A|(k & _ & ->)]; [congruence|congruence|]. cbn in P. discriminate.
Qed.

Lemma unique_ok W s p n s' : inv W s -> p = "_aux" \/ String.prefix "_aux" p = false -> unique V op p s = Done (n, s') ->
  inv W s' /\ fresh W s' n /\ vars s' = vars s /\ aux s' = aux s /\ (p = "_aux" -> exists k, k < count s' /\ n = numbered "_aux" k).
Proof.
  intros I P E. unfold unique in E.
  destruct (free_number V op _ p _ (vars s)) as [k|] eqn:F; [|discriminate].
  apply free_number_spec in F. destruct F as [KE L].
  assert (EN : n = numbered p k) by congruence.
  assert (ES : s' = mkState V op (vars s) ((p, S k) :: counters s) (aux s)) by congruence. subst n s'. clear E.
  set (s' := mkState V op _ _ _).
  assert (C : count s <= count s').
  { unfold count, s'. cbn [AutoVarModel.counters lookup]. destruct (String.eqb_spec "_aux" p) as [<-|NP]; [|lia].
    destruct (lookup "_aux" (counters s)); lia. }
  assert (I' : inv W s').
  { destruct I as [A1 A2 A3 A4 A5 A6]. split; try assumption.
    - intros n N. destruct (A3 n N) as [H|(j & J & ->)]; [left; exact H|right]. exists j. split; [lia|reflexivity].
    - intros e IE. destruct (A6 e IE) as (v & m & j & B1 & B2 & B3 & B4 & B5). exists v, m, j. repeat (split; [solve [auto | lia]|]). exact B5. }
  split; [exact I'|]. split; [|split; [reflexivity|split; [reflexivity|]]].
  - split; [exact L|]. split; [|apply numbered_signature]. destruct (lookup (numbered p k) W) eqn:EW; [|reflexivity].
    destruct (i_dom W s I (numbered p k)) as [A|(j & J & EJ)]; [congruence|congruence|]. exfalso.
    destruct (string_dec p "_aux") as [->|NP].
    + apply numbered_inj in EJ. subst j. unfold count in J. destruct (lookup "_aux" (counters s)); lia.
    + pose proof (numbered_aux p k j EJ NP). destruct P; congruence.
  - intros ->. exists k. split; [|reflexivity]. unfold count, s'. cbn. lia.
Qed.

Lemma add_ok W s n i : inv W s -> fresh W s n -> inv ((n, i) :: W) (add_var V op n i s).
Proof.
  intros I F. pose proof (fresh_new W s n I F) as NO. destruct F as (F1 & F2 & F3). destruct I as [A1 A2 A3 A4 A5 A6].
  unfold add_var. split; cbn [AutoVarModel.vars AutoVarModel.aux lookup].
  - intros m O. destruct (String.eqb_spec m n) as [->|]; [contradiction|]. apply A1. exact O.
  - intros m j O. destruct (String.eqb_spec m n) as [->|]; [auto|]. apply A2. exact O.
  - intros m. destruct (String.eqb_spec m n) as [->|]; [intros _; left; discriminate|]. apply A3.
  - destruct (String.eqb_spec "__signature__" n) as [<-|]; [congruence|]. exact A4.
  - cbn. constructor; [|exact A5]. apply lookup_none. exact F1.
  - intros e IE. destruct (A6 e IE) as (v & m & k & B1 & B2 & B3 & B4 & B5). exists v, m, k. repeat (split; [assumption|]).
    destruct B5 as [(C1 & C2 & C3)|(C1 & C2 & C3)]; [left|right]; repeat (split; [assumption|]);
      (cbn [lookup]; destruct (String.eqb_spec m n) as [->|]; [congruence|assumption]).
Qed.

Definition steps_to (W : list (string * item)) (e t : expr) (s' : state) : Prop :=
  exists W', grows W W' /\ inv W' s' /\ like W' e t.

Lemma make_aux_ok W s need e t t' s' : inv W s -> like W e t -> make_aux V op need t s = Done (t', s') -> steps_to W e t' s'.
Proof.
  intros I L E. unfold make_aux in E. destruct (negb need || is_var V op t).
  - assert (t = t') by congruence. assert (s = s') by congruence. subst. exists W. split; [apply grows_refl|]. auto.
  - destruct (unique V op "_aux" s) as [[n s1]| |] eqn:U; cbn in E; try discriminate.
    destruct (unique_ok W s "_aux" n s1 I (or_introl eq_refl) U) as (I1 & F & _).
    assert (t' = var n) by congruence. assert (s' = add_var V op n (Quote t) s1) by congruence. subst.
    exists ((n, Quote t) :: W). split; [apply grows_cons; apply F|]. split; [apply add_ok; assumption|].
    apply (LVar _ e n t); [apply (fresh_new W s1); assumption| cbn; rewrite String.eqb_refl; reflexivity |].
    apply (like_mono W); [apply grows_cons; apply F|exact L].
Qed.
Lemma steps_trans W W' e t s t' s' : grows W W' -> (inv W' s -> like W' e t -> steps_to W' e t' s') -> inv W' s -> like W' e t -> steps_to W e t' s'.
Proof. intros G H I L. destruct (H I L) as (W2 & G2 & R). exists W2. split; [apply (grows_trans W W'); assumption|exact R]. Qed.

Lemma extract_slice_ok W s v shared t s' : inv W s -> storable v ->
  extract_slice V op rank num implode op_explode stored v shared s = Done (t, s') -> steps_to W (Lit v) t s'.
Proof.
  intros I SV E. unfold extract_slice in E.
  destruct (unique V op "_aux" s) as [[n s1]| |] eqn:U; cbn [then_] in E; try discriminate.
  destruct (unique_ok W s "_aux" n s1 I (or_introl eq_refl) U) as (I1 & F & _ & _ & K). destruct (K eq_refl) as (k & KL & KN).
  pose proof (fresh_new W s1 n I1 F) as NO.
  set (i := if rank v =? 0 then stored v else stored (implode v)).
  set (e := if rank v =? 0 then var n else Call op_explode [var n; Lit (num (rank v))]).
  assert (E' : Done (e, if shared then add_var V op n i s1 else mkState V op (vars (add_var V op n i s1)) (counters s1) (e :: aux s1)) = Done (t, s')).
  { rewrite <- E. unfold e, i. destruct (rank v =? 0); reflexivity. }
  clear E. assert (e = t) by congruence. subst t.
  pose proof (add_ok W s1 n i I1 F) as I2.
  assert (LE : like ((n, i) :: W) (Lit v) e).
  { unfold e, i. destruct (Nat.eqb_spec (rank v) 0) as [R|R].
    - apply LItem; auto. cbn. rewrite String.eqb_refl. reflexivity.
    - apply LExplode; auto. cbn. rewrite String.eqb_refl. reflexivity. }
  exists ((n, i) :: W). split; [apply grows_cons; apply F|]. split; [|exact LE].
  destruct shared; [assert (s' = add_var V op n i s1) as -> by congruence; exact I2|].
  assert (ES : s' = mkState V op (vars (add_var V op n i s1)) (counters s1) (e :: aux s1)) by congruence. subst s'. clear E'.
  destruct I2 as [A1 A2 A3 A4 A5 A6]. split; try assumption.
  cbn [AutoVarModel.aux]. intros e' [<-|IE]; [|exact (A6 e' IE)].
  exists v, n, k. repeat (split; [assumption|]). unfold e, i. destruct (Nat.eqb_spec (rank v) 0) as [R|R]; [left|right];
    repeat (split; [auto|]); cbn; rewrite String.eqb_refl; reflexivity.
Qed.

Lemma erase_lookup m (vs : list (string * item)) x : lookup x (erase V op m vs) = if String.eqb x m then None else lookup x vs.
Proof.
  unfold erase. induction vs as [|[y i] vs IH]; cbn; [destruct (String.eqb x m); reflexivity|].
  destruct (String.eqb_spec m y) as [->|N]; cbn.
  - rewrite IH. destruct (String.eqb_spec x y); reflexivity.
  - destruct (String.eqb_spec x y) as [->|NX]; [|exact IH]. destruct (String.eqb_spec y m); [congruence|reflexivity].
Qed.
Lemma erase_nodup m (vs : list (string * item)) : NoDup (map fst vs) -> NoDup (map fst (erase V op m vs)).
Proof.
  unfold erase. induction vs as [|[y i] vs IH]; cbn; [auto|]. intros H. inversion H as [|? ? A B]. subst.
  destruct (negb (m =? y)%string); cbn; [constructor; auto|auto]. intros C. apply A. apply in_map_iff in C. destruct C as ([z j] & <- & C).
  apply filter_In in C. apply List.in_map. apply C.
Qed.
Lemma storable_value v : storable v -> exists w, value_of (if rank v =? 0 then stored v else stored (implode v)) = Some w.
Proof. unfold AutoVarSpec.storable. destruct (rank v =? 0); [eauto|]. intros (w & A & _). eauto. Qed.
Lemma value_not_quote (i : item) w : value_of i = Some w -> forall q, i <> Quote q.
Proof. intros E q ->. discriminate. Qed.


Lemma like_literal_var W W' n v : grows W W' -> ~ old n -> storable v -> rank v = 0 -> lookup n W' = Some (stored v) ->
  forall e t, like W e t -> t = Lit v -> like W' e (var n).
Proof.
  intros G ON SV R L. apply (like_rect' W (fun e t => t = Lit v -> like W' e (var n))); intros; try discriminate.
  - injection H as ->. apply LItem; assumption.
  - subst t. apply (LSlice W' o e _ y u); auto. apply (like_mono W); assumption.
  - apply LLocation; auto.
  - apply LName; auto.
Qed.
Lemma like_literal_part W v : forall e t, like W e t -> t = Lit v -> part (Lit v) e.
Proof.
  apply (like_rect' W (fun e t => t = Lit v -> part (Lit v) e)); intros; try discriminate.
  - injection H as ->. constructor.
  - apply (PartBelow V op _ o [e; y] e); [left; reflexivity|auto].
  - apply (PartBelow V op _ o (e :: l) e); [left; reflexivity|auto].
  - apply (PartBelow V op _ o [e; Lit v0] e); [left; reflexivity|auto].
Qed.

Hypothesis simple_items : forall v, is_simple v = true -> rank v = 0.

Lemma extract_named_ok W s n ce child t s' : inv W s -> like W ce child -> n <> "__signature__" -> String.prefix "_aux" n = false ->
  (forall v, is_slice v = true -> part (Lit v) ce -> storable v) ->
  extract_named V op same is_slice is_simple stored n child s = Done (t, s') -> steps_to W ce t s'.
Proof.
  intros I L NS NP ST E. unfold extract_named in E.
  destruct (if taken V op n (vars s) then unique V op n s else Done (n, s)) as [[n1 s1]| |] eqn:U; cbn [then_] in E; try discriminate.
  assert (H : inv W s1 /\ fresh W s1 n1).
  { destruct (taken V op n (vars s)) eqn:T.
    - destruct (unique_ok W s n n1 s1 I (or_intror NP) U) as (A & B & _). auto.
    - assert (n1 = n) by congruence. assert (s1 = s) by congruence. subst. split; [exact I|]. apply plain_fresh; auto.
      unfold taken in T. destruct (lookup n (vars s)); congruence. }
  clear I U. destruct H as [I F]. pose proof (fresh_new W s1 n1 I F) as NO.
  assert (Q : Done (var n1, add_var V op n1 (Quote child) s1) = Done (t, s') -> steps_to W ce t s').
  { intros Q. assert (t = var n1) by congruence. assert (s' = add_var V op n1 (Quote child) s1) by congruence. subst.
    exists ((n1, Quote child) :: W). split; [apply grows_cons; apply F|]. split; [apply add_ok; assumption|].
    apply (LVar _ ce n1 child NO); [cbn; rewrite String.eqb_refl; reflexivity|]. apply (like_mono W); [apply grows_cons; apply F|exact L]. }
  destruct (mem V op same child (aux s1)) eqn:M.
  - apply mem_in in M. destruct (i_aux W s1 I child M) as (v & m & k & SV & OM & EM & KL & C).
    assert (NM : sorted_names (names_in "V" child) = [m]) by (destruct C as [(_ & -> & _)|(_ & -> & _)]; reflexivity).
    rewrite NM in E. destruct (lookup m (vars s1)) as [i|] eqn:LM; [|discriminate].
    pose proof (i_new W s1 I m i OM LM) as WM.
    assert (NQ : forall q, i <> Quote q).
    { destruct (storable_value v SV) as (w & VW). apply (value_not_quote i w). rewrite <- VW. f_equal.
      destruct C as [(R & _ & C)|(R & _ & C)]; [rewrite R; cbn; congruence|]. apply Nat.eqb_neq in R. rewrite R. congruence. }
    set (s2 := mkState V op ((n1, i) :: erase V op m (vars s1)) (counters s1) (filter (fun e => negb (same child e)) (aux s1))) in *.
    assert (G : grows W ((n1, i) :: W)) by (apply grows_cons; apply F).
    assert (I2 : inv ((n1, i) :: W) s2).
    { destruct F as (F1 & F2 & F3). destruct I as [A1 A2 A3 A4 A5 A6]. unfold s2. split; cbn [AutoVarModel.vars AutoVarModel.aux lookup].
      - intros x O. destruct (String.eqb_spec x n1) as [->|]; [contradiction|]. rewrite erase_lookup.
        destruct (String.eqb_spec x m) as [->|]; [contradiction|]. apply A1. exact O.
      - intros x j O. destruct (String.eqb_spec x n1) as [->|]; [auto|]. rewrite erase_lookup.
        destruct (String.eqb_spec x m) as [->|]; [discriminate|]. apply A2. exact O.
      - intros x. destruct (String.eqb_spec x n1) as [->|]; [intros _; left; discriminate|]. rewrite erase_lookup. intros X.
        destruct (String.eqb_spec x m) as [->|]; [right; exists k; auto|]. apply (A3 x X).
      - destruct (String.eqb_spec "__signature__" n1) as [<-|]; [congruence|]. rewrite erase_lookup. rewrite A4.
        destruct (String.eqb "__signature__" m); reflexivity.
      - cbn. constructor; [|apply erase_nodup; exact A5]. apply lookup_none. rewrite erase_lookup, F1. destruct (String.eqb n1 m); reflexivity.
      - intros e IE. apply filter_In in IE. destruct (A6 e (proj1 IE)) as (v' & m' & k' & B1 & B2 & B3 & B4 & B5). exists v', m', k'.
        repeat (split; [assumption|]). destruct B5 as [(C1 & C2 & C3)|(C1 & C2 & C3)]; [left|right]; repeat (split; [assumption|]); apply G; exact C3. }
    assert (L2 : like ((n1, i) :: W) ce (rename V op m n1 child)).
    { apply (like_rename W _ m n1 i G OM NO WM NQ); [cbn; rewrite String.eqb_refl; reflexivity|exact L]. }
    destruct (make_aux_ok _ s2 true ce _ t s' I2 L2 E) as (W3 & G3 & R). exists W3. split; [apply (grows_trans _ _ _ G G3)|exact R].
  - destruct child; try exact (Q E). destruct (is_slice v) eqn:IS; [|exact (Q E)]. destruct (is_simple v) eqn:SI; [|discriminate].
    assert (t = var n1) by congruence. assert (s' = add_var V op n1 (stored v) s1) by congruence. subst.
    exists ((n1, stored v) :: W). split; [apply grows_cons; apply F|]. split; [apply add_ok; assumption|].
    apply (like_literal_var W _ n1 v) with (t := Lit v); auto.
    + apply grows_cons. apply F.
    + apply ST; [exact IS|]. apply (like_literal_part W v ce (Lit v) L eq_refl).
    + cbn. rewrite String.eqb_refl. reflexivity.
Qed.

(** ** All nodes *)
Section Nodes.
Variable extra : expr -> bool.
Variable tags : list (expr * tag V op).
Variable f : functor.
Hypothesis Hclosed : forall y, part_of (Input "V" y) f -> old y.
Hypothesis Hlocated : located kind f.
Hypothesis Hnamed : named_well kind text_of f.
Hypothesis Hstorable : storable_literals is_slice rank num implode op_explode stored eval_op with_bag b f.
Local Notation transform_node := (transform_node V op same kind is_slice is_simple is_unspecified text_of rank num implode op_explode stored extra tags).
Local Notation transform := (transform V op same kind is_slice is_simple is_unspecified text_of rank num implode op_explode stored extra tags).

Lemma part_trans (x y z : expr) : part x y -> part y z -> part x z.
Proof. intros P Q. induction Q; [exact P|]. apply (PartBelow V op _ o args a); assumption. Qed.
Lemma part_of_arg o args a : part_of (Call o args) f -> In a args -> part_of a f.
Proof. intros (x & e & L & P) I. exists x, e. split; [exact L|]. apply (part_trans _ (Call o args)); [|exact P]. apply (PartBelow V op _ o args a I). constructor. Qed.
Lemma part_of_part d e : part_of e f -> part d e -> part_of d f.
Proof. intros (x & q & L & P) D. exists x, q. split; [exact L|]. apply (part_trans _ e); assumption. Qed.

Lemma extract_call_ok W s shared need o args args' t s' : inv W s -> part_of (Call o args) f -> Forall2 (like W) args args' ->
  extract_call V op same kind is_slice is_simple text_of stored shared need o args' s = Done (t, s') -> steps_to W (Call o args) t s'.
Proof.
  intros I P L E. unfold extract_call in E.
  assert (LC : like W (Call o args) (Call o args')) by (constructor; exact L).
  destruct (negb need && negb shared).
  { assert (t = Call o args') by congruence. assert (s' = s) by congruence. subst. exists W. split; [apply grows_refl|]. auto. }
  assert (M : make_aux V op true (Call o args') s = Done (t, s') -> steps_to W (Call o args) t s') by (apply make_aux_ok; assumption).
  destruct (kind o) eqn:K; try exact (M E). destruct args' as [|child [|[v'| | | | |] [|? ?]]]; try exact (M E).
  destruct (Hnamed o args K P) as (c & v & -> & NS & NP).
  inversion L as [|? ? ? ? L1 LL]. subst. inversion LL as [|? ? ? ? L2 _]. subst.
  assert (v' = v). { inversion L2; subst; congruence. } subst v'.
  destruct (extract_named_ok W s (text_of v) c child t s' I L1 NS NP) as (W' & G & I' & L'); [|exact E|].
  - intros u SU PU. apply Hstorable; [exact SU|]. apply (part_of_part _ c); [|exact PU]. apply (part_of_arg o [c; Lit v]); [exact P|left; reflexivity].
  - exists W'. split; [exact G|]. split; [exact I'|]. apply LName; assumption.
Qed.

Definition new_form W (e new : expr) : Prop :=
  match e with Call o args => exists args', new = Call o args' /\ Forall2 (like W) args args' | _ => new = e end.

Lemma transform_node_ok W s e new t s' : inv W s -> part_of e f -> new_form W e new ->
  transform_node e new s = Done (t, s') -> steps_to W e t s'.
Proof.
  intros I P N E. destruct e as [v|c n| | | |o args]; cbn in N; try subst new.
  - cbn in E. destruct (is_slice v && negb (is_simple v)) eqn:C.
    + apply andb_true_iff in C. destruct C as [IS _].
      match type of E with then_ ?X _ = _ => destruct X as [[t1 s1]| |] eqn:X1 end; cbn [then_] in E; try discriminate.
      destruct (extract_slice_ok W s v _ t1 s1 I (Hstorable v IS P) X1) as (W1 & G & I1 & L1).
      destruct (make_aux_ok W1 s1 _ _ _ _ _ I1 L1 E) as (W2 & G2 & R). exists W2. split; [apply (grows_trans _ _ _ G G2)|exact R].
    + apply (make_aux_ok W s _ (Lit v) (Lit v) t s' I (LLit W v) E).
  - cbn in E. refine (make_aux_ok W s _ (Input c n) (Input c n) t s' I _ E). constructor. intros ->. apply Hclosed. exact P.
  - cbn in E. refine (make_aux_ok W s _ Token Token t s' I _ E). constructor.
  - cbn in E. refine (make_aux_ok W s _ (Leaf key) (Leaf key) t s' I _ E). constructor.
  - cbn in E. refine (make_aux_ok W s _ (Placeholder key) (Placeholder key) t s' I _ E). constructor.
  - destruct N as (args' & -> & L). unfold AutoVarModel.transform_node in E.
    assert (X : extract_call V op same kind is_slice is_simple text_of stored (is_shared V op same tags (Call o args)) (needed V op kind extra (Call o args)) o args' s = Done (t, s') ->
                steps_to W (Call o args) t s') by (intros X; apply (extract_call_ok W s _ _ o args args' t s' I P L X)).
    destruct (kind o) eqn:K; try exact (X E).
    + destruct args' as [|val [|[u| | | | |] [|? ?]]]; try exact (X E).
      destruct (literal_or_aux V op same is_slice val s && is_unspecified u) eqn:C; [|exact (X E)].
      apply andb_true_iff in C. inversion L as [|x1 ? ? ? L1 LL]. subst. inversion LL as [|x2 ? ? ? L2 LN]. subst. inversion LN. subst.
      refine (make_aux_ok W s _ _ val t s' I _ E). apply (LSlice W o x1 val x2 u); tauto.
    + destruct args' as [|val rest]; [exact (X E)|]. destruct (literal_or_aux V op same is_slice val s) eqn:C; [|exact (X E)].
      inversion L as [|x1 ? xs ? L1 LL]. subst. refine (make_aux_ok W s _ _ val t s' I _ E).
      apply LLocation; [exact K| |exact L1]. intros y IY. exact (Hlocated o x1 xs K P y IY).
Qed.

Lemma find_new_in e l t : find_new V op same e l = Some t -> In (e, t) l.
Proof.
  induction l as [|[e' t'] l IH]; cbn; [discriminate|]. destruct (same e e') eqn:S; [|auto].
  apply same_spec in S. subst e'. intros E. injection E as ->. auto.
Qed.
Lemma all_new_ok es l ts : all_new V op same es l = Some ts -> Forall2 (fun e t => In (e, t) l) es ts.
Proof.
  revert ts. induction es as [|e es IH]; cbn; intros ts E; [injection E as <-; constructor|].
  destruct (find_new V op same e l) as [t|] eqn:F; [|discriminate]. destruct (all_new V op same es l) as [ts'|]; [|discriminate].
  injection E as <-. constructor; [apply find_new_in; exact F|auto].
Qed.

Lemma transform_ok nodes : forall W l s l' s', inv W s -> (forall e, In e nodes -> part_of e f) ->
  (forall e t, In (e, t) l -> like W e t) -> transform nodes l s = Done (l', s') ->
  exists W', grows W W' /\ inv W' s' /\ forall e t, In (e, t) l' -> like W' e t.
Proof.
  induction nodes as [|e nodes IH]; cbn; intros W l s l' s' I P LL E.
  - assert (l = l') by congruence. assert (s = s') by congruence. subst. exists W. split; [apply grows_refl|]. auto.
  - destruct (with_new_args V op same e l) as [new|] eqn:N; [|discriminate].
    match type of E with then_ ?X _ = _ => destruct X as [[t1 s1]| |] eqn:X1 end; cbn [then_] in E; try discriminate.
    assert (NF : new_form W e new).
    { destruct e; cbn in N |- *; try congruence. destruct (all_new V op same args l) as [ts|] eqn:A; [|discriminate].
      injection N as <-. exists ts. split; [reflexivity|]. apply all_new_ok in A. eapply Forall2_P; [|exact A]. intros; apply LL; assumption. }
    destruct (transform_node_ok W s e new t1 s1 I (P e (or_introl eq_refl)) NF X1) as (W1 & G1 & I1 & L1).
    destruct (IH W1 ((e, t1) :: l) s1 l' s' I1) as (W2 & G2 & R); [intros; apply P; right; assumption| |exact E|].
    + intros x t [H|H]; [injection H as <- <-; exact L1|]. apply (like_mono W); auto.
    + exists W2. split; [apply (grows_trans _ _ _ G1 G2)|exact R].
Qed.
End Nodes.

(** ** The post order *)
Lemma post_parts e : forall l d, In d (post V op same e l) -> In d l \/ part d e.
Proof.
  induction e as [v|c n| | | |o args IH] using expr_rect'; intros l d; cbn [post];
    try (destruct (mem V op same _ l); [auto|]; rewrite in_app_iff; intros [H|[<-|[]]]; [auto|right; constructor]).
  assert (Q : forall as_ l, (forall a, In a as_ -> In a args) -> In d (fold_left (fun l a => post V op same a l) as_ l) -> In d l \/ exists a, In a args /\ part d a).
  { clear H l. induction as_ as [|a as_ IHa]; cbn; intros l S H; [auto|].
    destruct (IHa _ (fun x i => S x (or_intror i)) H) as [A|A]; [|auto].
    rewrite Forall_forall in IH. destruct (IH a (S a (or_introl eq_refl)) l d A) as [B|B]; [auto|]. right. exists a. split; [apply S; left; reflexivity|exact B]. }
  destruct (Q args l (fun _ i => i) H) as [A|(a & A & B)]; [auto|]. right. apply (PartBelow V op _ o args a A B).
Qed.
Lemma post_order_parts roots d : In d (post_order V op same roots) -> exists r, In r roots /\ part d r.
Proof.
  unfold post_order.
  assert (Q : forall rs l, In d (fold_left (fun l e => post V op same e l) rs l) -> In d l \/ exists r, In r rs /\ part d r).
  { induction rs as [|r rs IH]; cbn; intros l H; [auto|]. destruct (IH _ H) as [A|(r' & A & B)].
    - apply post_parts in A. destruct A as [A|A]; [auto|]. right. eauto.
    - right. eauto. }
  intros H. destruct (Q roots [] H) as [[]|A]. exact A.
Qed.
End Auto.
