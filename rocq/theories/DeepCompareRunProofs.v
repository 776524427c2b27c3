From Coq Require Import String List Bool Arith NArith ZArith Lia Permutation Sorted.
From Verif Require Import DeepCompareModel DeepCompareSpec DeepCompareOrderProofs DeepCompareStepProofs.
Import ListNotations.
Local Open Scope string_scope.
Local Open Scope nat_scope.
Local Open Scope list_scope.

(** * Places *)
Lemma same_sym a b : same_item a b -> same_item b a.
Proof. intros H. inversion H; subst; constructor; auto. Qed.
Lemma same_trans a b c : same_item a b -> same_item b c -> same_item a c.
Proof. intros H H'. inversion H; subst; auto; inversion H'; subst; auto; constructor. Qed.
Lemma place_sym a b : same_place a b = true -> same_place b a = true.
Proof.
  destruct a, b; cbn; auto; try discriminate; rewrite ?Nat.eqb_eq, ?String.eqb_eq, ?item_eqb_same; auto using same_sym.
Qed.
Lemma place_trans a b c : same_place a b = true -> same_place b c = true -> same_place a c = true.
Proof.
  destruct a, b; cbn; try discriminate; destruct c; cbn; auto; try discriminate;
    rewrite ?Nat.eqb_eq, ?String.eqb_eq, ?item_eqb_same; eauto using same_trans; congruence.
Qed.
Lemma place_refl k : good_key k -> is_dict_key k = false -> same_place k k = true.
Proof.
  intros [N K] D. destruct k; cbn in *; try discriminate; try contradiction; auto using Nat.eqb_refl, String.eqb_refl.
  apply item_eqb_same. apply same_refl. exact N.
Qed.
Lemma place_field a b f g : field_of a = Some f -> field_of b = Some g -> same_place a b = true -> same_field f g.
Proof.
  destruct a, b; cbn; try discriminate; intros F G; injection F as <-; injection G as <-;
    rewrite ?Nat.eqb_eq, ?String.eqb_eq, ?item_eqb_same; intros E; try (left; congruence).
  right. eauto.
Qed.
Lemma label_place a b : good_key a -> is_dict_key a = false -> label a = label b -> same_place a b = true.
Proof.
  intros G D E. assert (P := place_refl a G D). destruct a, b; cbn in *; try discriminate; inversion E; subst; auto.
Qed.

Lemma key_visible k f : field_of k = Some f -> is_dict_key k = false <-> visible f.
Proof. destruct k; cbn; try discriminate; intros E; injection E as <-; cbn; intuition discriminate. Qed.
Lemma key_element k f : field_of k = Some f -> item_or_value k = true <-> element f.
Proof. destruct k; cbn; try discriminate; intros E; injection E as <-; cbn; intuition discriminate. Qed.
Lemma has_value_iff x : has_value x = true <-> x <> Missing.
Proof. destruct x; cbn; intuition congruence. Qed.

(** * The invariant of the comparison *)
Section Run.
Variables (p : params) (lb rb : bag).
Hypothesis Wl : wf_bag lb.
Hypothesis Wr : wf_bag rb.
Variable n0 : nat.

Notation tokens := (list (node * node * rnode)).
Definition tok_of (T : tokens) (q : node * node) (t : rnode) : Prop :=
  exists q', In (q', t) T /\ (q' = q \/ pair_eqb q' q = true).
Definition token_ok (next : nat) (l : node) (t : rnode) : Prop :=
  match t with
  | RVal x => x = n_item l /\ has_value x = true /\ is_obj x = false
  | RTok _ n => n < next /\ (n_item l = Missing \/ is_obj (n_item l) = true)
  | RDiff _ _ => False
  end.
Definition edge_ok (T : tokens) (next : nat) (l r : node) (k : key) (to : rnode) : Prop :=
  exists f, field_of k = Some f /\ visible f /\
    ((exists n d, to = RDiff n d /\ n0 <= n < next /\ differs p lb rb l r f d) \/
     (exists l' r', goes lb l f l' /\ goes rb r f r' /\ alike p l' r' /\ tok_of T (l', r') to)).
Record done (T : tokens) (es : list edge) (l r : node) (t : rnode) : Prop := {
  dn_both : forall f l' r', visible f -> goes lb l f l' -> goes rb r f r' -> alike p l' r' ->
    exists k to, field_of k = Some f /\ In (mkEdge t k to) es /\ tok_of T (l', r') to;
  dn_diff : forall f d, differs p lb rb l r f d ->
    exists k f' n d', field_of k = Some f' /\ same_field f f' /\ In (mkEdge t k (RDiff n d')) es;
  dn_left : forall f l', goes lb l f l' -> (exists r', goes rb r f r') \/ (forall r', ~ goes rb r f r');
  dn_right : forall f r', goes rb r f r' -> (exists l', goes lb l f l') \/ (forall l', ~ goes lb l f l');
  dn_types : a_type (n_schema l) /\ a_type (n_schema r) }.

Record inv (st : state) (cur : option (node * node * rnode)) : Prop := {
  iv_tok : forall l r t, In (l, r, t) (s_tokens st) -> alike p l r /\ token_ok (s_next st) l t;
  iv_inj : forall q q' k n, In (q, RTok k n) (s_tokens st) -> In (q', RTok k n) (s_tokens st) -> q = q';
  iv_stack : forall t l r, In (t, l, r) (s_stack st) -> In (l, r, t) (s_tokens st);
  iv_edges : forall e, In e (s_edges st) -> exists k n l r,
    e_from e = RTok k n /\ In (l, r, e_from e) (s_tokens st) /\ edge_ok (s_tokens st) (s_next st) l r (e_key e) (e_to e);
  iv_diff : forall e e' n d d', In e (s_edges st) -> In e' (s_edges st) -> e_to e = RDiff n d -> e_to e' = RDiff n d' -> e = e';
  iv_done : forall l r t, In (l, r, t) (s_tokens st) ->
    In (t, l, r) (s_stack st) \/ cur = Some (l, r, t) \/ done (s_tokens st) (s_edges st) l r t;
  iv_next : n0 <= s_next st;
  iv_cur : forall l r t, cur = Some (l, r, t) -> In (l, r, t) (s_tokens st) }.

Lemma tok_mono T T' q t : incl T T' -> tok_of T q t -> tok_of T' q t.
Proof. intros I (q' & A & B). exists q'. auto. Qed.
Lemma token_ok_mono n n' l t : n <= n' -> token_ok n l t -> token_ok n' l t.
Proof. intros L. destruct t; cbn; intuition lia. Qed.
Lemma edge_ok_mono T T' n n' l r k to : incl T T' -> n <= n' -> edge_ok T n l r k to -> edge_ok T' n' l r k to.
Proof.
  intros I L (f & F & V & H). exists f. split; [auto|]. split; [auto|]. destruct H as [(m & d & A & B & C)|(l' & r' & A & B & C & D)].
  - left. exists m, d. split; [auto|]. split; [lia|auto].
  - right. exists l', r'. split; [auto|]. split; [auto|]. split; [auto|]. eapply tok_mono; eauto.
Qed.
Lemma done_mono T T' es es' l r t : incl T T' -> (forall e, In e es -> e_from e = t -> In e es') ->
  done T es l r t -> done T' es' l r t.
Proof.
  intros I E [A B C D F]. constructor; auto.
  - intros f l' r' V G G' K. destruct (A f l' r' V G G' K) as (k & to & X & Y & Z). exists k, to. split; [auto|].
    split; [apply E; auto|]. eapply tok_mono; eauto.
  - intros f d X. destruct (B f d X) as (k & f' & n & d' & X1 & X2 & X3). exists k, f', n, d'. auto.
Qed.

Lemma find_token_in q T t : find_token q T = Some t -> tok_of T q t.
Proof.
  induction T as [|[q' t'] T IH]; cbn; [discriminate|]. destruct (pair_eqb q' q) eqn:E.
  - intros X. injection X as <-. exists q'. cbn. auto.
  - intros X. destruct (IH X) as (q2 & A & B). exists q2. cbn. auto.
Qed.

Lemma tok_ok_of st cur q t : inv st cur -> tok_of (s_tokens st) q t -> exists l, token_ok (s_next st) l t.
Proof. intros I (q' & A & _). destruct q' as [l r]. exists l. apply (iv_tok _ _ I _ _ _ A). Qed.

Lemma add_ok st cur l r st' t : inv st cur -> alike p l r -> add_to_compare st l r = Ok (st', t) ->
  inv st' cur /\ tok_of (s_tokens st') (l, r) t /\ incl (s_tokens st) (s_tokens st') /\
  s_edges st' = s_edges st /\ s_next st <= s_next st'.
Proof.
  intros I AL. unfold add_to_compare. destruct (find_token (l, r) (s_tokens st)) eqn:F.
  { intros E. assert (st' = st) by congruence. assert (t = r0) by congruence. subst. apply find_token_in in F.
    split; [exact I|]. split; [exact F|]. split; [apply incl_refl|]. auto. }
  intros E. inv_bind E. destruct a as [s1 t1].
  assert (TK : s_tokens s1 = s_tokens st /\ s_stack s1 = s_stack st /\ s_edges s1 = s_edges st /\ s_next st <= s_next s1 /\
               token_ok (s_next s1) l t1 /\ (forall k n, t1 = RTok k n -> n = s_next st)).
  { unfold create_token in E0. destruct (has_value (n_item l)) eqn:HV.
    - unfold token_like in E0. destruct (n_item l) eqn:IL; cbn in HV; try discriminate;
        (assert (S1 := f_equal (fun z => match z with Ok a => fst a | Err _ => s1 end) E0);
         assert (T1 := f_equal (fun z => match z with Ok a => snd a | Err _ => t1 end) E0); cbn [fst snd] in S1, T1; subst s1 t1;
         cbn [s_tokens s_stack s_edges s_next token_ok]; rewrite ?IL; cbn;
         repeat split; auto; try lia; intros ? ? Q; congruence).
    - destruct (has_value (n_item r)); [discriminate|]. unfold token_like in E0.
      assert (S1 := f_equal (fun z => match z with Ok a => fst a | Err _ => s1 end) E0).
      assert (T1 := f_equal (fun z => match z with Ok a => snd a | Err _ => t1 end) E0). cbn [fst snd] in S1, T1. subst s1 t1.
      cbn [s_tokens s_stack s_edges s_next token_ok]. repeat split; auto; try lia.
      + left. destruct (n_item l); cbn in HV; congruence.
      + intros ? ? Q. congruence. }
  destruct TK as (T1 & S1 & E1 & N1 & K1 & F1).
  assert (X1 := f_equal (fun z => match z with Ok a => fst a | Err _ => st' end) E). cbn [fst] in X1.
  assert (X2 := f_equal (fun z => match z with Ok a => snd a | Err _ => t end) E). cbn [snd] in X2. subst st' t. clear E.
  cbn [s_tokens s_stack s_next s_edges]. rewrite T1, S1, E1.
  split; [|split; [|split; [|split]]]; auto.
  2:{ exists (l, r). split; [left; reflexivity|auto]. }
  2:{ intros x X. right. exact X. }
  destruct I as [Itok Iinj Istack Iedges Idiff Idone Inext Icur].
  constructor; cbn [s_tokens s_stack s_next s_edges].
  - intros a b t [X|X].
    + assert (a = l) by congruence. assert (b = r) by congruence. assert (t = t1) by congruence. subst. auto.
    + destruct (Itok _ _ _ X) as [A B]. split; auto. eapply token_ok_mono; eauto.
  - intros q q' k n [X|X] [Y|Y].
    + congruence.
    + exfalso. assert (t1 = RTok k n) by congruence. assert (n = s_next st) by (eapply F1; eauto).
      destruct q' as [a b]. destruct (Itok _ _ _ Y) as [_ [B _]]. lia.
    + exfalso. assert (t1 = RTok k n) by congruence. assert (n = s_next st) by (eapply F1; eauto).
      destruct q as [a b]. destruct (Itok _ _ _ X) as [_ [B _]]. lia.
    + eapply Iinj; eauto.
  - intros t a b [X|X].
    + left. congruence.
    + right. auto.
  - rewrite ?E1. intros e X. destruct (Iedges e X) as (k & n & a & b & A & B & C). exists k, n, a, b.
    split; [auto|]. split; [right; auto|]. eapply edge_ok_mono; eauto. intros x Y. right. exact Y.
  - rewrite ?E1. exact Idiff.
  - intros a b t [X|X].
    + left. left. congruence.
    + destruct (Idone _ _ _ X) as [A|[A|A]]; [left; right; exact A|auto|]. right. right. apply (done_mono (s_tokens st) _ (s_edges st)); [intros x Y; right; exact Y|intros; assumption|exact A].
  - lia.
  - intros a b t X. right. auto.
Qed.

(** ** One pair *)
Section Pair.
Variables (l r : node) (t : rnode) (ls rs : item) (lts rts : tset).
Hypothesis RL : resolve lb l = Ok ls.
Hypothesis RR : resolve rb r = Ok rs.
Hypothesis TL : get_transitions lb (n_item l) ls = Ok lts.
Hypothesis TR : get_transitions rb (n_item r) rs = Ok rts.

Definition lread := by_key lb (n_item l) ls lts.
Definition rread := by_key rb (n_item r) rs rts.
Definition step_key (s : step) : key := match s with LeftOnly k => k | RightOnly k => k | Match k _ => k end.
Definition matching (s : step) : Prop := match s with Match _ _ => True | _ => False end.
(** What is known of a step before it is made *)
Definition step_true (s : step) : Prop :=
  match s with
  | LeftOnly k => good_key k /\ exists f, field_of k = Some f /\
      (forall l', lread k = Ok l' -> goes lb l f l') /\ (forall r', ~ goes rb r f r')
  | RightOnly k => good_key k /\ exists f, field_of k = Some f /\
      (forall r', rread k = Ok r' -> goes rb r f r') /\ (forall l', ~ goes lb l f l')
  | Match k k' => good_key k /\ exists f, field_of k = Some f /\ field_of k' = Some f /\
      (forall l', lread k = Ok l' -> goes lb l f l') /\ (forall r', rread k' = Ok r' -> goes rb r f r')
  end.
(** What it leaves in the result *)
Definition effect (st : state) (s : step) : Prop :=
  let saved_diff k := exists k' n d, same_place k' k = true /\ In (mkEdge t k' (RDiff n d)) (s_edges st) in
  match s with
  | LeftOnly k => exists l', lread k = Ok l' /\
      forall f, field_of k = Some f -> visible f -> left_matters p f l' -> saved_diff k
  | RightOnly k => exists r', rread k = Ok r' /\
      forall f, field_of k = Some f -> visible f -> right_matters p f r' -> saved_diff k
  | Match k k' => exists l' r', lread k = Ok l' /\ rread k' = Ok r' /\
      forall f, field_of k = Some f -> visible f ->
        (alike p l' r' -> exists to, In (mkEdge t k to) (s_edges st) /\ tok_of (s_tokens st) (l', r') to) /\
        (~ alike p l' r' -> both_matter p f r' -> saved_diff k)
  end.
Definition kept (st st' : state) (s : step) : Prop :=
  forall e, In e (s_edges st) -> In e (s_edges st') \/
    (e_from e = t /\ same_place (e_key e) (step_key s) = true /\
     (matching s \/ exists n d, In (mkEdge t (step_key s) (RDiff n d)) (s_edges st'))).

Lemma set_edge_in es k v e : In e (set_edge es t k v) <->
  e = mkEdge t k v \/ (In e es /\ ~ (e_from e = t /\ same_place (e_key e) k = true)).
Proof.
  unfold set_edge. cbn [In]. rewrite filter_In, negb_true_iff, andb_false_iff.
  destruct (rnode_eq_dec (e_from e) t) as [E|E]; destruct (same_place (e_key e) k); intuition (try congruence).
Qed.

(** Saving under the pair that is being compared *)
Lemma save_ok st k v st' : inv st (Some (l, r, t)) -> is_dict_key k = false ->
  save_transition st t k v = Ok st' -> edge_ok (s_tokens st) (s_next st) l r k v ->
  (forall n d, v = RDiff n d -> forall e d', In e (s_edges st) -> e_to e <> RDiff n d') ->
  inv st' (Some (l, r, t)) /\ s_tokens st' = s_tokens st /\ s_edges st' = set_edge (s_edges st) t k v.
Proof.
  intros I D S EO FR. unfold save_transition in S. rewrite D in S.
  assert (TT : exists tk n, t = RTok tk n).
  { destruct (iv_tok _ _ I l r t) as [_ K]; [eapply iv_cur; eauto|]. clear - S K.
    destruct t; try discriminate; eauto. contradiction. }
  destruct TT as (tk & n & TT).
  assert (ST : st' = mkState (s_tokens st) (s_stack st) (s_next st) (set_edge (s_edges st) t k v) (s_marked st)).
  { rewrite TT in S |- *. congruence. }
  subst st'. cbn [s_tokens s_edges]. split; [|auto].
  destruct I as [Itok Iinj Istack Iedges Idiff Idone Inext Icur].
  constructor; cbn [s_tokens s_stack s_next s_edges]; auto.
  - intros e E. apply set_edge_in in E. destruct E as [->|[E _]]; [|auto].
    exists tk, n, l, r. cbn [e_from e_key e_to]. split; [auto|]. split; [apply Icur; auto|exact EO].
  - intros e e' m d d' E E' X X'. apply set_edge_in in E, E'.
    destruct E as [->|[E _]]; destruct E' as [->|[E' _]]; cbn [e_to] in *; auto.
    + exfalso. eapply FR; eauto.
    + exfalso. eapply FR; eauto.
    + eapply Idiff; eauto.
  - intros a b u X. destruct (Idone _ _ _ X) as [A|[A|A]]; auto.
    destruct (rnode_eq_dec u t) as [->|N].
    + right. left. assert (Q : (a, b) = (l, r)). { eapply Iinj; [rewrite <- TT; exact X|rewrite <- TT; apply Icur; auto]. } congruence.
    + right. right. eapply done_mono; [apply incl_refl| |exact A]. intros e E F. apply set_edge_in. right. split; auto. intros [Q _]. congruence.
Qed.

Lemma inv_bump st cur m : inv st cur -> inv (mkState (s_tokens st) (s_stack st) (S (s_next st)) (s_edges st) m) cur.
Proof.
  intros [Itok Iinj Istack Iedges Idiff Idone Inext Icur]. constructor; cbn [s_tokens s_stack s_next s_edges]; auto.
  - intros a b u X. destruct (Itok _ _ _ X) as [A B]. split; auto. eapply token_ok_mono; [|exact B]. lia.
  - intros e E. destruct (Iedges e E) as (k & n & a & b & A & B & C). exists k, n, a, b. split; [auto|]. split; [auto|].
    eapply edge_ok_mono; [apply incl_refl| |exact C]. lia.
Qed.

Lemma save_diff_ok st k d st' f : inv st (Some (l, r, t)) -> is_dict_key k = false -> good_key k ->
  field_of k = Some f -> differs p lb rb l r f d -> save_diff st t k d = Ok st' ->
  inv st' (Some (l, r, t)) /\ s_tokens st' = s_tokens st /\
  exists n, s_edges st' = set_edge (s_edges st) t k (RDiff n d).
Proof.
  intros I D G F DF S. unfold save_diff in S. rewrite D in S. unfold create_diff in S.
  apply save_ok in S; auto.
  - destruct S as (A & B & C). split; [exact A|]. split; [exact B|]. eexists. exact C.
  - apply inv_bump. exact I.
  - cbn [s_tokens s_next]. exists f. split; [auto|]. split; [apply (proj1 (key_visible _ _ F)); auto|].
    left. exists (s_next st), d. split; [auto|]. split; [|exact DF]. pose proof (iv_next _ _ I). lia.
  - intros n d' X e d'' E Y. cbn [s_edges] in E. injection X as <- <-.
    destruct (iv_edges _ _ I e E) as (k' & m & a & b & _ & _ & (g & _ & _ & [(n' & dd & A & B & _)|(l' & r' & _ & _ & _ & TO)])).
    + assert (n' = s_next st) by congruence. lia.
    + rewrite Y in TO. destruct (tok_ok_of _ _ _ _ I TO) as [x X]. exact X.
Qed.

Lemma step_ok st s st' : inv st (Some (l, r, t)) -> step_true s ->
  do_step p lb rb t (n_item l) ls (n_item r) rs lts rts st s = Ok st' ->
  inv st' (Some (l, r, t)) /\ incl (s_tokens st) (s_tokens st') /\ kept st st' s /\ effect st' s.
Proof.
  intros I ST H.
  assert (same : forall (P : Prop), st' = st -> P -> inv st' (Some (l, r, t)) /\ incl (s_tokens st) (s_tokens st') /\ kept st st' s /\ P).
  { intros P -> X. split; [exact I|]. split; [apply incl_refl|]. split; [intros e E; left; exact E|exact X]. }
  assert (saved : forall k d f (P : Prop), step_key s = k -> is_dict_key k = false -> good_key k -> field_of k = Some f ->
     differs p lb rb l r f d -> save_diff st t k d = Ok st' ->
     ((exists k' n d, same_place k' k = true /\ In (mkEdge t k' (RDiff n d)) (s_edges st')) -> P) ->
     inv st' (Some (l, r, t)) /\ incl (s_tokens st) (s_tokens st') /\ kept st st' s /\ P).
  { intros k d f P SK D G F DF S X. destruct (save_diff_ok _ _ _ _ _ I D G F DF S) as (A & B & n & C).
    split; [exact A|]. split; [rewrite B; apply incl_refl|]. rewrite ?C.
    assert (IN : In (mkEdge t k (RDiff n d)) (set_edge (s_edges st) t k (RDiff n d))) by (apply set_edge_in; left; reflexivity).
    split.
    - intros e E. rewrite C, SK. destruct (rnode_eq_dec (e_from e) t) as [Q|Q]; [destruct (same_place (e_key e) k) eqn:SP|].
      + right. split; [auto|]. split; [auto|]. right. eauto.
      + left. apply set_edge_in. right. split; [auto|]. intros [_ ?]. congruence.
      + left. apply set_edge_in. right. split; [auto|]. intros [? _]. congruence.
    - apply X. exists k, n, d. split; [apply place_refl; auto|]. rewrite ?C. exact IN. }
  destruct s as [k|k|k k']; cbn [step_true do_step step_key] in *.
  - destruct ST as (G & f & F & GO & NO). inv_bind H. change (lread k = Ok a) in E. unfold lhs_only in H.
    destruct (p_partial p && negb (item_or_value k)) eqn:C1.
    { apply same; [congruence|]. exists a. split; [exact E|]. intros f' F' _ [LM _]. exfalso.
      rewrite andb_true_iff, negb_true_iff in C1. destruct C1 as [C1 C2].
      apply LM in C1. apply (key_element _ _ F') in C1. congruence. }
    destruct (negb (has_value (n_item a)) && negb (p_schemas p)) eqn:C2.
    { apply same; [congruence|]. exists a. split; [exact E|]. intros f' F' _ [_ LM]. exfalso.
      rewrite andb_true_iff, !negb_true_iff in C2. destruct C2 as [C2 C3].
      rewrite LM in C3; [discriminate|]. destruct (n_item a); cbn in C2; congruence. }
    assert (LM : left_matters p f a).
    { split.
      - intros PP. apply (key_element _ _ F). rewrite PP in C1. cbn in C1. destruct (item_or_value k); auto; discriminate.
      - intros M. rewrite M in C2. cbn in C2. destruct (p_schemas p); auto; discriminate. }
    destruct (is_dict_key k) eqn:D.
    { unfold save_diff in H. rewrite D in H. apply same; [congruence|]. exists a. split; [exact E|].
      intros f' F' V. exfalso. apply (key_visible _ _ F') in V. congruence. }
    eapply saved with (k := k) (f := f) (d := DLeft a); auto.
    + apply differs_left; auto. apply (proj1 (key_visible _ _ F)); auto.
    + intros X. exists a. split; [exact E|]. intros. exact X.
  - destruct ST as (G & f & F & GO & NO). inv_bind H. change (rread k = Ok a) in E. unfold rhs_only in H.
    destruct (negb (has_value (n_item a)) && negb (p_schemas p)) eqn:C2.
    { apply same; [congruence|]. exists a. split; [exact E|]. intros f' F' _ LM. exfalso.
      rewrite andb_true_iff, !negb_true_iff in C2. destruct C2 as [C2 C3]. unfold right_matters in LM.
      rewrite LM in C3; [discriminate|]. destruct (n_item a); cbn in C2; congruence. }
    assert (LM : right_matters p f a).
    { intros M. rewrite M in C2. cbn in C2. destruct (p_schemas p); auto; discriminate. }
    destruct (is_dict_key k) eqn:D.
    { unfold save_diff in H. rewrite D in H. apply same; [congruence|]. exists a. split; [exact E|].
      intros f' F' V. exfalso. apply (key_visible _ _ F') in V. congruence. }
    eapply saved with (k := k) (f := f) (d := DRight a); auto.
    + apply differs_right; auto. apply (proj1 (key_visible _ _ F)); auto.
    + intros X. exists a. split; [exact E|]. intros. exact X.
  - destruct ST as (G & f & F & F' & GL & GR). inv_bind H. inv_bind H.
    change (lread k = Ok a) in E. change (rread k' = Ok a0) in E0.
    destruct (equal p a a0) eqn:Q.
    + apply equal_iff in Q. inv_bind H. destruct a1 as [s1 to].
      destruct (add_ok _ _ _ _ _ _ I Q E1) as (I1 & TO & IT & ED & NX).
      destruct (is_dict_key k) eqn:D.
      { unfold save_transition in H. rewrite D in H. assert (s1 = st') by congruence. subst s1.
        split; [exact I1|]. split; [exact IT|]. split; [intros e X; left; rewrite ED; exact X|].
        exists a, a0. split; [exact E|]. split; [exact E0|]. intros f' Ff V. exfalso. apply (key_visible _ _ Ff) in V. congruence. }
      destruct (save_ok _ _ _ _ I1 D H) as (I2 & T2 & E2).
      * exists f. split; [auto|]. split; [apply (proj1 (key_visible _ _ F)); auto|]. right. exists a, a0. auto.
      * intros n d X e d' _ _. subst to. destruct (tok_ok_of _ _ _ _ I1 TO) as [x X]. exact X.
      * split; [exact I2|]. split; [rewrite T2; exact IT|]. split.
        -- intros e X. rewrite E2, ED. destruct (rnode_eq_dec (e_from e) t) as [Z|Z]; [destruct (same_place (e_key e) k) eqn:SP|].
           ++ right. split; [auto|]. split; [auto|]. left. exact Logic.I.
           ++ left. apply set_edge_in. right. split; [auto|]. intros [_ ?]. congruence.
           ++ left. apply set_edge_in. right. split; [auto|]. intros [? _]. congruence.
        -- exists a, a0. split; [exact E|]. split; [exact E0|]. intros f' Ff V. split; [|tauto]. intros _.
           exists to. rewrite E2, T2. split; [apply set_edge_in; left; reflexivity|exact TO].
    + assert (NA : ~ alike p a a0) by (rewrite <- equal_iff, Q; discriminate). unfold both_mismatch in H.
      destruct (p_partial p && negb (item_or_value k) && negb (has_value (n_item a0))) eqn:C1.
      { apply same; [congruence|]. exists a, a0. split; [exact E|]. split; [exact E0|]. intros f' Ff V. split; [tauto|].
        intros _ BM. exfalso. rewrite !andb_true_iff, !negb_true_iff in C1. destruct C1 as [[C1 C2] C3].
        apply BM in C1. destruct C1 as [C1|C1].
        - apply (key_element _ _ Ff) in C1. congruence.
        - apply has_value_iff in C1. congruence. }
      assert (BM : both_matter p f a0).
      { intros PP. rewrite PP in C1. cbn in C1. destruct (item_or_value k) eqn:IV.
        - left. apply (key_element _ _ F). auto.
        - right. apply has_value_iff. destruct (has_value (n_item a0)); auto; discriminate. }
      destruct (is_dict_key k) eqn:D.
      { unfold save_diff in H. rewrite D in H. apply same; [congruence|]. exists a, a0. split; [exact E|]. split; [exact E0|].
        intros f' Ff V. exfalso. apply (key_visible _ _ Ff) in V. congruence. }
      eapply saved with (k := k) (f := f) (d := DMismatch a a0 (schema_mismatch p a a0)); auto.
      * apply differs_both; auto; [apply (proj1 (key_visible _ _ F)); auto|apply schema_mismatch_iff].
      * intros X. exists a, a0. split; [exact E|]. split; [exact E0|]. intros f' Ff V. split; [tauto|]. intros. exact X.
Qed.

Definition apart (s s' : step) : Prop :=
  same_place (step_key s) (step_key s') = true -> ~ matching s /\ ~ matching s'.

Lemma effect_kept st st' s s' : incl (s_tokens st) (s_tokens st') -> kept st st' s' -> apart s s' -> good_key (step_key s) ->
  effect st s -> effect st' s.
Proof.
  intros IT K AP G E.
  assert (SD : forall k, step_key s = k ->
    (exists k' n d, same_place k' k = true /\ In (mkEdge t k' (RDiff n d)) (s_edges st)) ->
    exists k' n d, same_place k' k = true /\ In (mkEdge t k' (RDiff n d)) (s_edges st')).
  { intros k SK (k' & n & d & SP & IN). destruct (K _ IN) as [X|(_ & X & [M|(n' & d' & Y)])]; cbn [e_key] in *.
    - eauto.
    - exfalso. apply AP in M; auto. rewrite SK. eapply place_trans; [apply place_sym; exact SP|exact X].
    - exists (step_key s'), n', d'. split; [|exact Y]. eapply place_trans; [apply place_sym; exact X|exact SP]. }
  destruct s as [k|k|k k']; cbn [effect step_key] in *.
  - destruct E as (l' & A & B). exists l'. split; [auto|]. intros f F V M. apply SD; auto. apply (B f F V M).
  - destruct E as (l' & A & B). exists l'. split; [auto|]. intros f F V M. apply SD; auto. apply (B f F V M).
  - destruct E as (l' & r' & A & A' & B). exists l', r'. split; [auto|]. split; [auto|]. intros f F V.
    destruct (B f F V) as [B1 B2]. split.
    + intros AL. destruct (B1 AL) as (to & IN & TO). exists to. split; [|eapply tok_mono; eauto].
      destruct (K _ IN) as [X|(_ & X & _)]; auto. exfalso. cbn [e_key] in X.
      destruct (AP X) as [N _]. apply N. exact Logic.I.
    + intros NA M. apply SD; auto.
Qed.

Lemma step_good s : step_true s -> good_key (step_key s).
Proof. destruct s; intros [G _]; exact G. Qed.

Lemma steps_ok steps : forall st st', inv st (Some (l, r, t)) -> (forall s, In s steps -> step_true s) ->
  ForallOrdPairs apart steps ->
  do_steps p lb rb t (n_item l) ls (n_item r) rs lts rts st steps = Ok st' ->
  inv st' (Some (l, r, t)) /\ incl (s_tokens st) (s_tokens st') /\ (forall s, In s steps -> effect st' s) /\
  (forall s, step_true s -> (forall s', In s' steps -> apart s s') -> effect st s -> effect st' s).
Proof.
  induction steps as [|s steps IH]; cbn [do_steps]; intros st st' I ST AP H.
  { assert (st' = st) by congruence. subst. split; [exact I|]. split; [apply incl_refl|]. split; [intros s []|auto]. }
  inv_bind H. inversion AP as [|? ? AP1 AP2]. subst.
  destruct (step_ok _ _ _ I (ST s (or_introl eq_refl)) E) as (I1 & IT & K & EF).
  destruct (IH _ _ I1 (fun x X => ST x (or_intror X)) AP2 H) as (I2 & IT2 & EF2 & KP2).
  split; [exact I2|]. split; [eapply incl_tran; eauto|].
  rewrite Forall_forall in AP1. split.
  - intros x [<-|X]; auto. apply KP2; auto. apply ST. left. reflexivity.
  - intros x XT XA XE. apply KP2; auto.
    + intros s' S'. apply XA. right. exact S'.
    + eapply effect_kept; eauto.
      * apply XA. left. reflexivity.
      * apply step_good. exact XT.
Qed.

Definition steps := merge_keys (sort_keys (transition_keys lts)) (sort_keys (transition_keys rts)).
Lemma steps_merged : merged (transition_keys lts) (transition_keys rts) steps.
Proof.
  pose proof (transitions_good _ _ _ _ Wl TL) as [GL NL PL]. pose proof (transitions_good _ _ _ _ Wr TR) as [GR NR PR].
  assert (PLk := sort_perm (transition_keys lts)). assert (PRk := sort_perm (transition_keys rts)).
  assert (ML : forall k, In k (sort_keys (transition_keys lts)) <-> In k (transition_keys lts)).
  { intros k. split; apply Permutation_in; auto. symmetry. auto. }
  assert (MR : forall k, In k (sort_keys (transition_keys rts)) <-> In k (transition_keys rts)).
  { intros k. split; apply Permutation_in; auto. symmetry. auto. }
  destruct (merge_spec (sort_keys (transition_keys lts)) (sort_keys (transition_keys rts))) as [A B C D].
  - rewrite <- PLk. exact GL.
  - rewrite <- PRk. exact GR.
  - apply sort_sorted; auto.
  - apply sort_sorted; auto.
  - constructor; auto.
    + intros k. unfold steps. rewrite A, ML. split; intros [X Y]; split; auto; intros x Z; apply Y; apply MR; auto.
    + intros k. unfold steps. rewrite B, MR. split; intros [X Y]; split; auto; intros x Z; apply Y; apply ML; auto.
    + intros a b. unfold steps. rewrite C, ML, MR. tauto.
Qed.
Lemma steps_true : forall s, In s steps -> step_true s.
Proof.
  pose proof steps_merged as [A B C D].
  pose proof (transitions_good _ _ _ _ Wl TL) as [GL NL PL]. pose proof (transitions_good _ _ _ _ Wr TR) as [GR NR PR].
  rewrite Forall_forall in GL, GR.
  pose proof (goes_iff _ _ _ _ Wl RL TL) as QL. pose proof (goes_iff _ _ _ _ Wr RR TR) as QR.
  assert (FO : forall k, good_key k -> exists f, field_of k = Some f).
  { intros k [_ K]. destruct k; cbn; eauto. contradiction. }
  intros [k|k|k k'] S; cbn [step_true].
  - apply A in S. destruct S as [S N]. split; [auto|]. destruct (FO k (GL k S)) as [f F]. exists f. split; [auto|]. split.
    + intros l' R. apply QL. eauto.
    + intros r' R. apply QR in R. destruct R as (k' & K' & F' & _). apply (N k' K'). apply label_field; auto. congruence.
  - apply B in S. destruct S as [S N]. split; [auto|]. destruct (FO k (GR k S)) as [f F]. exists f. split; [auto|]. split.
    + intros l' R. apply QR. eauto.
    + intros r' R. apply QL in R. destruct R as (k' & K' & F' & _). apply (N k' K'). apply label_field; auto. congruence.
  - apply C in S. destruct S as (S & S' & E). split; [auto|]. destruct (FO k (GL k S)) as [f F]. exists f.
    assert (F' : field_of k' = Some f) by (rewrite <- F; symmetry; apply label_field; auto).
    split; [auto|]. split; [auto|]. split; intros; [apply QL|apply QR]; eauto.
Qed.
Lemma place_dict a b : same_place a b = true -> is_dict_key a = false /\ is_dict_key b = false.
Proof. destruct a, b; cbn; auto; discriminate. Qed.
Lemma steps_apart : ForallOrdPairs apart steps.
Proof.
  pose proof steps_merged as [A B C D].
  pose proof (transitions_good _ _ _ _ Wl TL) as [GL NL PL]. pose proof (transitions_good _ _ _ _ Wr TR) as [GR NR PR].
  rewrite Forall_forall in GL, GR.
  assert (X : forall s s', In s steps -> In s' steps -> s <> s' -> matching s -> same_place (step_key s) (step_key s') = true -> False).
  { intros s s' S S' N M SP. destruct s as [k|k|k k1]; try contradiction. cbn [step_key] in SP.
    apply C in S. destruct S as (S & S1 & E). destruct (place_dict _ _ SP) as [DK DK'].
    destruct s' as [j|j|j j1]; cbn [step_key] in *.
    - apply A in S'. destruct S' as [S' NO]. assert (k = j) by (apply PL; auto). subst. apply (NO k1); auto.
    - apply B in S'. destruct S' as [S' NO].
      assert (k1 = j).
      { apply PR; auto. eapply place_trans; [apply place_sym; apply label_place; eauto|exact SP]. }
      subst. apply (NO k); auto.
    - apply C in S'. destruct S' as (S' & S1' & E'). assert (k = j) by (apply PL; auto). subst j. apply N.
      assert (L : label k1 = label j1) by congruence.
      assert (k1 = j1); [|congruence].
      apply PR; auto. apply label_place; auto.
      apply (place_dict k1 k1). eapply place_trans; [apply place_sym; apply label_place; [|exact DK|exact E]; auto|apply label_place; auto]. }
  assert (Y : forall l0, (forall s, In s l0 -> In s steps) -> NoDup l0 -> ForallOrdPairs apart l0).
  { induction l0 as [|s l0 IH]; intros IN ND; constructor; inversion ND; subst.
    - rewrite Forall_forall. intros s' S' SP. assert (s <> s') by congruence. split; intros M.
      + eapply (X s s'); eauto; apply IN; [left; reflexivity|right; exact S'].
      + eapply (X s' s); eauto; try (apply IN; [right; exact S'] || apply IN; left; reflexivity); auto using place_sym.
        all: try (apply IN; cbn; auto).
    - apply IH; auto. intros x Hx. apply IN. right. exact Hx. }
  apply Y; auto.
Qed.

Lemma a_type_of b n s ts : resolve b n = Ok s -> get_transitions b (n_item n) s = Ok ts -> a_type (n_schema n).
Proof.
  intros R T. apply resolve_own in R. destruct R as [(A & _)|[_ ->]].
  - right. eauto.
  - unfold get_transitions in T. destruct (n_schema n); try discriminate; [left|right]; eauto.
Qed.

Lemma pair_done st : (forall s, In s steps -> effect st s) -> done (s_tokens st) (s_edges st) l r t.
Proof.
  intros EF. pose proof steps_merged as [A B C D].
  pose proof (transitions_good _ _ _ _ Wl TL) as [GL NL PL]. pose proof (transitions_good _ _ _ _ Wr TR) as [GR NR PR].
  rewrite Forall_forall in GL, GR.
  pose proof (goes_iff _ _ _ _ Wl RL TL) as QL. pose proof (goes_iff _ _ _ _ Wr RR TR) as QR.
  assert (SF : forall k k' n d, same_place k' k = true -> In (mkEdge t k' (RDiff n d)) (s_edges st) ->
            forall f, field_of k = Some f -> exists k f' n d', field_of k = Some f' /\ same_field f f' /\ In (mkEdge t k (RDiff n d')) (s_edges st)).
  { intros k k' n d SP IN f F. assert (exists f', field_of k' = Some f') as [f' F'].
    { destruct k', k; cbn in *; try discriminate; eauto. }
    exists k', f', n, d. split; [auto|]. split; [|auto]. eapply place_field; eauto using place_sym. }
  assert (dec : forall k (ks : list key), (exists k', In k' ks /\ label k' = label k) \/ (forall k', In k' ks -> label k' <> label k)).
  { intros k ks. induction ks as [|x ks IH]; [right; intros ? []|].
    assert (DE : {label x = label k} + {label x <> label k}).
    { repeat decide equality; try apply item_eq_dec. }
    destruct DE as [E|E]; [left; exists x; cbn; auto|].
    destruct IH as [(k' & K & L)|N]; [left; exists k'; cbn; auto|]. right. intros k' [<-|K]; auto. }
  assert (MT : forall k, In k (transition_keys lts) -> forall k', In k' (transition_keys rts) -> label k = label k' ->
     In (Match k k') steps) by (intros; apply C; auto).
  constructor.
  - intros f l' r' V G G' AL. apply QL in G. apply QR in G'.
    destruct G as (k & K & F & BK), G' as (k' & K' & F' & BK').
    assert (L : label k = label k') by (apply label_field; auto; congruence).
    destruct (EF _ (MT k K k' K' L)) as (a & b & RA & RB & X). unfold lread, rread in *.
    assert (a = l') by congruence. assert (b = r') by congruence. subst.
    destruct (X f F V) as [X1 _]. destruct (X1 AL) as (to & IN & TO). exists k, to. auto.
  - intros f d DF. destruct DF as [l' V G N LM|r' V G N RM|l' r' m V G G' NA BM _].
    + apply QL in G. destruct G as (k & K & F & BK).
      assert (S : In (LeftOnly k) steps).
      { apply A. split; [auto|]. intros k' K' L.
        assert (SM : In (Match k k') steps) by (apply MT; auto).
        destruct (EF _ SM) as (a & b & _ & RB & _). apply (N b). apply QR. exists k'. split; [auto|]. split; [|exact RB].
        rewrite <- F. apply label_field; auto. }
      destruct (EF _ S) as (a & RA & X). assert (a = l') by (unfold lread in RA; congruence). subst.
      destruct (X f F V LM) as (k' & n & d & SP & IN). eapply SF; eauto.
    + apply QR in G. destruct G as (k & K & F & BK).
      assert (S : In (RightOnly k) steps).
      { apply B. split; [auto|]. intros k' K' L.
        assert (SM : In (Match k' k) steps) by (apply MT; auto).
        destruct (EF _ SM) as (a & b & RA & _ & _). apply (N a). apply QL. exists k'. split; [auto|]. split; [|exact RA].
        rewrite <- F. apply label_field; auto. }
      destruct (EF _ S) as (a & RA & X). assert (a = r') by (unfold rread in RA; congruence). subst.
      destruct (X f F V RM) as (k' & n & d & SP & IN). eapply SF; eauto.
    + apply QL in G. apply QR in G'. destruct G as (k & K & F & BK), G' as (k' & K' & F' & BK').
      assert (L : label k = label k') by (apply label_field; auto; congruence).
      destruct (EF _ (MT k K k' K' L)) as (a & b & RA & RB & X). unfold lread, rread in *.
      assert (a = l') by congruence. assert (b = r') by congruence. subst.
      destruct (X f F V) as [_ X2]. destruct (X2 NA BM) as (k2 & n & d & SP & IN). eapply SF; eauto.
  - intros f l' G. apply QL in G. destruct G as (k & K & F & BK).
    destruct (dec k (transition_keys rts)) as [(k' & K' & L)|N].
    + left. destruct (EF _ (MT k K k' K' (eq_sym L))) as (a & b & _ & RB & _). exists b. apply QR. exists k'. split; [auto|].
      split; [|exact RB]. rewrite <- F. apply label_field; auto.
    + right. intros r' G. apply QR in G. destruct G as (k' & K' & F' & _). apply (N k' K'). apply label_field; auto. congruence.
  - intros f r' G. apply QR in G. destruct G as (k & K & F & BK).
    destruct (dec k (transition_keys lts)) as [(k' & K' & L)|N].
    + left. destruct (EF _ (MT k' K' k K L)) as (a & b & RA & _ & _). exists a. apply QL. exists k'. split; [auto|].
      split; [|exact RA]. rewrite <- F. apply label_field; auto.
    + right. intros l' G. apply QL in G. destruct G as (k' & K' & F' & _). apply (N k' K'). apply label_field; auto. congruence.
  - split; eapply a_type_of; eauto.
Qed.
End Pair.

(** ** The whole loop *)
Lemma pair_ok st l r t st' : inv st (Some (l, r, t)) -> compare_pair p lb rb st t l r = Ok st' -> inv st' None.
Proof.
  intros I H. unfold compare_pair in H. inv_bind H. inv_bind H. inv_bind H. inv_bind H.
  destruct (steps_ok _ _ _ _ _ _ _ _ _ _ I (steps_true _ _ _ _ _ _ E E0 E1 E2) (steps_apart _ _ _ _ _ _ E1 E2) H) as (I' & _ & EF & _).
  pose proof (pair_done _ _ _ _ _ _ _ E E0 E1 E2 _ EF) as DN.
  destruct I' as [Itok Iinj Istack Iedges Idiff Idone Inext Icur]. constructor; auto.
  - intros x y u X. destruct (Idone _ _ _ X) as [A|[A|A]]; auto. right. right.
    assert (x = l) by congruence. assert (y = r) by congruence. assert (u = t) by congruence. subst. exact DN.
  - intros ? ? ? ?. discriminate.
Qed.

Lemma inv_pop st t l r rest m : inv st None -> s_stack st = (t, l, r) :: rest ->
  inv (mkState (s_tokens st) rest (s_next st) (s_edges st) m) (Some (l, r, t)).
Proof.
  intros [Itok Iinj Istack Iedges Idiff Idone Inext Icur] E. constructor; cbn [s_tokens s_stack s_next s_edges]; auto.
  - intros u a b X. apply Istack. rewrite E. right. exact X.
  - intros a b u X. destruct (Idone _ _ _ X) as [A|[A|A]]; auto; [|discriminate]. rewrite E in A. destruct A as [A|A]; auto.
    right. left. congruence.
  - intros a b u X. apply Istack. rewrite E. left. congruence.
Qed.

Lemma deep_ok fuel : forall st st', inv st None -> deep_compare fuel p lb rb st = Some (Ok st') ->
  inv st' None /\ s_stack st' = [].
Proof.
  induction fuel as [|fuel IH]; intros st st' I H.
  - cbn in H. destruct (s_stack st) as [|[[t l] r] rest] eqn:E; [|discriminate]. assert (st' = st) by congruence. subst. auto.
  - cbn in H. destruct (s_stack st) as [|[[t l] r] rest] eqn:E.
    { assert (st' = st) by congruence. subst. auto. }
    match type of H with context [compare_pair ?a ?b ?c ?d ?e ?f ?g] => destruct (compare_pair a b c d e f g) eqn:C end; [|discriminate].
    eapply IH; [|exact H]. eapply pair_ok; [|exact C]. eapply inv_pop; eauto.
Qed.
End Run.
