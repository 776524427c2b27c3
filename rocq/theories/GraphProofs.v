(** Proofs about the names of schema nodes and the schema graph. *)
From Coq Require Import String.
From Coq Require Import NArith ZArith List Bool PeanoNat Lia Permutation Relations.
From Verif Require Import PathModel PathSpec PathProofs PathGenProofs
  GraphModel GraphSpec GraphClosureProofs.
Import ListNotations.
Local Open Scope list_scope.
Local Open Scope nat_scope.

(** * Names *)

Lemma operation_iff lx a op : subschema_operation lx a = Some op <-> operation lx a op.
Proof.
  split.
  - destruct a as [| | |s]; cbn [subschema_operation].
    1-3: intros E; injection E as <-; constructor.
    cbn [action_text]. destruct (isidentifier lx s) eqn:I.
    + intros E; injection E as <-. now apply operation_attr.
    + destruct (encode lx s) as [c|] eqn:C; [|discriminate].
      intros E; injection E as <-. now apply (operation_encoded lx s c).
  - intros H; destruct H as [ | | |s I|s c I C]; try reflexivity.
    + cbn [subschema_operation action_text]. now rewrite I.
    + cbn [subschema_operation action_text]. now rewrite I, C.
Qed.

Lemma node_name_iff lx o y n : node_name lx o y = Ok n <-> names lx o y n.
Proof.
  split.
  - destruct y as [id|t| |]; cbn [node_name]; try discriminate.
    + intros E; assert (id = n) by congruence; subst. constructor.
    + destruct o as [[[id|u| |] a]|]; cbn [item_id_name bind]; try discriminate.
      * destruct (subschema_operation lx a) as [op|] eqn:O; [|discriminate].
        intros E; injection E as <-. apply names_leaf. now apply operation_iff.
      * intros E; injection E as <-. apply names_root.
  - intros H; destruct H as [o id|t|id a op t O]; [reflexivity|reflexivity|].
    cbn [node_name item_id_name bind]. apply operation_iff in O. now rewrite O.
Qed.

Lemma operation_printable lx a : printable lx a <-> exists op, operation lx a op.
Proof.
  split.
  - destruct a as [| | |s]; cbn [printable]; intros H;
      [eexists; constructor|eexists; constructor|eexists; constructor|].
    destruct (isidentifier lx s) eqn:I.
    + eexists. now apply operation_attr.
    + destruct (encode lx s) as [c|] eqn:C.
      * eexists. now apply (operation_encoded lx s c).
      * destruct H; congruence.
  - intros [op H]. destruct H as [ | | |s I|s c I C]; cbn; try exact Logic.I.
    + now left.
    + right. congruence.
Qed.

(** The text of an operation starts with a dot. *)
Lemma operation_dot lx a op : operation lx a op -> exists r, op = 46%N :: r /\ r <> [].
Proof.
  intros H; destruct H as [ | | |s I|s c I C]; try (eexists; split; [reflexivity|discriminate]).
  exists s. split; [reflexivity|]. intros ->. discriminate I.
Qed.


Lemma operation_injective lx (C : codec_ok lx) a a' op :
  operation lx a op -> operation lx a' op -> a = a'.
Proof.
  assert (P : forall s r, isidentifier lx s = true -> s = r -> In 40%N r -> False).
  { intros s r I -> J. apply (identifier_not lx r 40%N I); [tauto|assumption]. }
  intros H H'. inversion H as [E1 E2|E1 E2|E1 E2|s I E1 E2|s c I E E1 E2]; subst a;
    inversion H' as [F1 F2|F1 F2|F1 F2|s' I' F1 F2|s' c' I' E' F1 F2]; subst a';
    rewrite <- F2 in E2; clear F2 H H'; cbn in E2; try reflexivity; try discriminate E2.
  all: try (exfalso; injection E2 as E2; symmetry in E2; eapply (P s'); [assumption|eassumption|];
            cbn; tauto).
  all: try (exfalso; injection E2 as E2; eapply (P s); [assumption|eassumption|]; cbn; tauto).
  - injection E2 as ->. reflexivity.
  - injection E2 as E2. apply app_inv_tail in E2. subst c'.
    apply (proj1 C) in E, E'. congruence.
Qed.

Lemma first_split (c : N) a b t t' :
  ~ In c a -> ~ In c b -> a ++ c :: t = b ++ c :: t' -> a = b /\ t = t'.
Proof.
  revert b; induction a as [|x a IH]; intros b NA NB E.
  - destruct b as [|y b]; cbn in E.
    + injection E as E. now split.
    + injection E as E1 E2. exfalso. apply NB. now left.
  - destruct b as [|y b]; cbn in E.
    + injection E as E1 E2. exfalso. apply NA. now left.
    + injection E as -> E2. destruct (IH b) as [-> ->]; [| |assumption|now split].
      * intros I. apply NA. now right.
      * intros I. apply NB. now right.
Qed.

Lemma last_split (c : N) a b t t' :
  ~ In c t -> ~ In c t' -> a ++ c :: t = b ++ c :: t' -> a = b /\ t = t'.
Proof.
  intros NA NB E. apply (f_equal (@rev N)) in E.
  rewrite !rev_app_distr in E. cbn [rev] in E. rewrite <- !app_assoc in E. cbn [app] in E.
  apply first_split in E as [E1 E2]; [|now rewrite <- in_rev|now rewrite <- in_rev].
  split.
  - rewrite <- (rev_involutive a), <- (rev_involutive b). now rewrite E2.
  - rewrite <- (rev_involutive t), <- (rev_involutive t'). now rewrite E1.
Qed.

Lemma plain_no_dot id : plain (SNode id) -> ~ In 46%N id.
Proof.
  cbn. intros F I. apply (proj1 (Forall_forall _ _) F) in I. unfold alphanumeric in I. lia.
Qed.

Lemma plain_no_colon t : plain (SPrimitive t) -> ~ In 58%N t.
Proof.
  cbn. intros F I. apply (proj1 (Forall_forall _ _) F) in I. unfold alphanumeric in I. lia.
Qed.

(** A leaf has a dot in its name. *)
Lemma names_plain lx o y n :
  names lx o y n -> ~ In 46%N n -> y = SNode n.
Proof.
  intros H N. destruct H as [o id|t|id a op t O]; [reflexivity| |].
  - exfalso. apply N. cbn. now left.
  - exfalso. apply N. apply in_or_app. right. apply in_or_app. left.
    apply operation_dot in O as [r [-> _]]. now left.
Qed.

Definition plain_origin (o : origin) : Prop :=
  match o with Some (x, _) => plain x | None => True end.

Lemma names_primitive lx o t n :
  names lx o (SPrimitive t) n ->
  (o = None /\ n = str ".:" ++ t)
  \/ exists id a op, o = Some (SNode id, a) /\ operation lx a op
       /\ n = id ++ op ++ str ":" ++ t.
Proof.
  intros H. remember (SPrimitive t) as y eqn:Y. destruct H as [o id|u|id a op u O].
  - discriminate.
  - injection Y as ->. now left.
  - injection Y as ->. right. now exists id, a, op.
Qed.

Lemma names_identify lx (C : codec_ok lx) o y o' y' n :
  names lx o y n -> names lx o' y' n ->
  plain y -> plain y' -> plain_origin o -> plain_origin o' -> same_node o y o' y'.
Proof.
  intros H H' P P' Q Q'. unfold same_node.
  destruct y as [id|t| |].
  - inversion H; subst. apply plain_no_dot in P.
    rewrite (names_plain lx o' y' n H' P). now split.
  - destruct y' as [id'|t'| |].
    + inversion H'; subst. apply plain_no_dot in P'.
      pose proof (names_plain lx o (SPrimitive t) n H P'). discriminate.
    + apply plain_no_colon in P, P'.
      apply names_primitive in H as [[-> E3]|[id [a [op [-> [O E3]]]]]];
        apply names_primitive in H' as [[-> F3]|[id' [a' [op' [-> [O' F3]]]]]];
        rewrite E3 in F3; clear E3; try symmetry in F3.
      * apply app_inv_head in F3. subst t'. now split.
      * exfalso. cbn in Q'. apply plain_no_dot in Q'.
        destruct (operation_dot lx a' op' O') as [r [-> NR]].
        cbn in F3. destruct id' as [|c id']; cbn in F3.
        -- injection F3 as F3. change (58%N :: t') with ([58%N] ++ t') in F3.
           change (58%N :: t) with ([] ++ 58%N :: t) in F3.
           apply last_split in F3 as [F3 _]; try assumption. now subst r.
        -- injection F3 as F3 _. subst c. apply Q'. now left.
      * exfalso. cbn in Q. apply plain_no_dot in Q.
        destruct (operation_dot lx a op O) as [r [-> NR]].
        cbn in F3. destruct id as [|c id]; cbn in F3.
        -- injection F3 as F3. symmetry in F3. change (58%N :: t') with ([] ++ 58%N :: t') in F3.
           apply last_split in F3 as [F3 _]; try assumption. now subst r.
        -- injection F3 as F3 _. subst c. apply Q. now left.
      * cbn in Q, Q'. apply plain_no_dot in Q, Q'.
        destruct (operation_dot lx a op O) as [r [R NR]].
        destruct (operation_dot lx a' op' O') as [r' [R' NR']].
        assert (F4 : id' = id /\ r' ++ 58%N :: t' = r ++ 58%N :: t).
        { apply (first_split 46%N); try assumption. subst op op'. exact F3. }
        destruct F4 as [-> F4].
        apply last_split in F4 as [-> ->]; try assumption.
        rewrite <- R in R'. subst op'. rewrite (operation_injective lx C a a' op O O').
        now split.
    + inversion H'.
    + inversion H'.
  - inversion H.
  - inversion H.
Qed.

(** * Arriving *)

Lemma arrives_leads b o x p o' y : arrives b o x p o' y -> leads b x p y.
Proof.
  intros H; induction H as [|p o' y a z H IH L]; [constructor|].
  apply leads_app. now exists y.
Qed.

Lemma arrives_snoc b o x p a o' z :
  arrives b o x (p ++ [a]) o' z <->
  exists o'' y, arrives b o x p o'' y /\ leads b y [a] z /\ o' = Some (y, a).
Proof.
  split.
  - intros H. remember (p ++ [a]) as q eqn:Q. destruct H as [|p' o'' y a' z H L].
    + destruct p; discriminate.
    + apply app_inj_tail in Q as [-> ->]. now exists o'', y.
  - intros [o'' [y [H [L ->]]]]. now apply (arrives_step _ _ _ _ o'').
Qed.

Lemma leads_arrives b o x p y : leads b x p y -> exists o', arrives b o x p o' y.
Proof.
  revert y. induction p as [|a p IH] using rev_ind; intros y H.
  - inversion H; subst. exists o. constructor.
  - apply leads_app in H as [z [H1 H2]]. apply IH in H1 as [o' A].
    exists (Some (z, a)). now apply (arrives_step _ _ _ _ o').
Qed.

Lemma arrives_unique b o x p o1 y1 o2 y2 :
  schema_bag_ok b -> arrives b o x p o1 y1 -> arrives b o x p o2 y2 ->
  o1 = o2 /\ y1 = y2.
Proof.
  intros B. revert o1 y1 o2 y2. induction p as [|a p IH] using rev_ind; intros o1 y1 o2 y2 H1 H2.
  - assert (K : forall q o' y, arrives b o x q o' y -> q = [] -> o' = o /\ y = x).
    { intros q o' y H; destruct H as [|q ? ? ? ? ? ?]; [now split|]. intros E; now destruct q. }
    destruct (K _ _ _ H1 eq_refl) as [-> ->]. destruct (K _ _ _ H2 eq_refl) as [-> ->].
    now split.
  - apply arrives_snoc in H1 as [p1 [z1 [A1 [L1 ->]]]].
    apply arrives_snoc in H2 as [p2 [z2 [A2 [L2 ->]]]].
    destruct (IH _ _ _ _ A1 A2) as [-> ->]. split; [reflexivity|].
    now apply (leads_unique b z2 [a]).
Qed.

Lemma walk_arrives b (B : schema_bag_ok b) p : forall o x o' y,
  walk b o x p = Some (o', y) <-> arrives b o x p o' y.
Proof.
  assert (S : forall p o x a o' z, walk b o x (p ++ [a]) = Some (o', z) <->
     exists o'' y, walk b o x p = Some (o'', y) /\ get_subschema b a y = Some z
       /\ o' = Some (y, a)).
  { clear p. induction p as [|c p IH]; intros o x a o' z; cbn [walk app].
    - destruct (get_subschema b a x) as [u|] eqn:G; split.
      + intros E; injection E as <- <-. now exists o, x.
      + intros [o'' [y [E [F ->]]]]. injection E as <- <-. congruence.
      + discriminate.
      + intros [o'' [y [E [F ->]]]]. injection E as <- <-. congruence.
    - destruct (get_subschema b c x) as [u|] eqn:G; [apply IH|].
      split; [discriminate|]. now intros [o'' [y [E _]]]. }
  induction p as [|a p IH] using rev_ind; intros o x o' y.
  - cbn. split.
    + intros E; injection E as <- <-. constructor.
    + intros H. destruct (arrives_unique b o x [] o' y o x B H) as [-> ->]; [constructor|reflexivity].
  - rewrite S, arrives_snoc. split; intros [o'' [z [E [F G]]]]; exists o'', z.
    + split; [now apply IH|]. split; [|assumption]. apply leads_cons. exists y.
      split; [now apply in_expand|constructor].
    + split; [now apply IH|]. split; [|assumption]. apply leads_cons in F as [u [F K]].
      inversion K; subst. now apply in_expand.
Qed.

Lemma step_node b y a z : leads b y [a] z -> exists id, y = SNode id.
Proof. intros H; inversion H; subst; now eexists. Qed.

Lemma step_expand b y a z : leads b y [a] z <-> In (a, z) (expand_schema b y).
Proof.
  rewrite leads_cons. split.
  - intros [u [I K]]. now inversion K; subst.
  - intros I. exists z. split; [assumption|constructor].
Qed.

Lemma path_node_name_iff lx b x p n :
  schema_bag_ok b -> (path_node_name lx b x p = Ok n <-> named lx b x p n).
Proof.
  intros B. unfold path_node_name, named. split.
  - destruct (walk b None x p) as [[o y]|] eqn:W; [|discriminate].
    intros E. exists o, y. split; [now apply walk_arrives|now apply node_name_iff].
  - intros [o [y [A H]]]. apply (walk_arrives b B) in A. rewrite A. now apply node_name_iff.
Qed.
