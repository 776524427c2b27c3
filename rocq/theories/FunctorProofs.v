(** Proofs about the walk over the variables of a functor. *)
From Coq Require Import String Ascii List Bool Arith Lia Relations NArith.
From Verif Require Import SignatureModel SignatureSpec FunctorModel FunctorSpec.
Import ListNotations.
Local Open Scope string_scope.
Local Open Scope nat_scope.
Local Open Scope list_scope.

(** ** Names *)

Lemma compare_lt_trans a : forall b c, String.compare a b = Lt -> String.compare b c = Lt -> String.compare a c = Lt.
Proof.
  induction a as [|x a IH]; intros [|y b] [|z c] A B; cbn in *; try discriminate; auto.
  unfold Ascii.compare in *.
  destruct (N.compare_spec (N_of_ascii x) (N_of_ascii y)) as [E|E|E]; [|clear A|discriminate A].
  - destruct (N.compare_spec (N_of_ascii y) (N_of_ascii z)) as [F|F|F]; [| |discriminate B].
    + rewrite (proj2 (N.compare_eq_iff (N_of_ascii x) (N_of_ascii z))) by congruence. eapply IH; eassumption.
    + rewrite (proj2 (N.compare_lt_iff (N_of_ascii x) (N_of_ascii z))) by lia. reflexivity.
  - destruct (N.compare_spec (N_of_ascii y) (N_of_ascii z)) as [F|F|F]; [| |discriminate B].
    + rewrite (proj2 (N.compare_lt_iff (N_of_ascii x) (N_of_ascii z))) by lia. reflexivity.
    + rewrite (proj2 (N.compare_lt_iff (N_of_ascii x) (N_of_ascii z))) by lia. reflexivity.
Qed.
Lemma compare_refl a : String.compare a a = Eq.
Proof. induction a as [|x a IH]; cbn; [reflexivity|]. unfold Ascii.compare. rewrite N.compare_refl. exact IH. Qed.
Lemma compare_gt a b : String.compare a b = Gt -> String.compare b a = Lt.
Proof. intros H. rewrite String.compare_antisym, H. reflexivity. Qed.

Inductive asc : list string -> Prop :=
| asc_nil : asc []
| asc_cons a l : Forall (fun b => String.compare a b = Lt) l -> asc l -> asc (a :: l).

Lemma insert_name_in n l x : In x (insert_name n l) <-> x = n \/ In x l.
Proof.
  induction l as [|m l IH]; cbn [insert_name]; [cbn; split; intros [H|H]; auto; contradiction|].
  destruct (String.compare n m) eqn:E.
  - apply String.compare_eq_iff in E. subst. cbn. split; [auto|]. intros [->|H]; auto.
  - cbn. split; intros [H|H]; auto.
  - cbn. rewrite IH. split; [intros [H|[H|H]]|intros [H|[H|H]]]; auto.
Qed.
Lemma insert_name_asc n l : asc l -> asc (insert_name n l).
Proof.
  induction 1 as [|a l F A IH]; cbn [insert_name]; [repeat constructor|].
  destruct (String.compare n a) eqn:E.
  - constructor; assumption.
  - constructor; [|constructor; assumption]. constructor; [exact E|].
    eapply Forall_impl; [|exact F]. intros b B. eapply compare_lt_trans; eassumption.
  - constructor; [|exact IH]. apply Forall_forall. intros x I. apply insert_name_in in I. destruct I as [->|I].
    + apply compare_gt. exact E.
    + rewrite Forall_forall in F. apply F. exact I.
Qed.
Lemma sorted_names_in l x : In x (sorted_names l) <-> In x l.
Proof. induction l as [|n l IH]; cbn; [reflexivity|]. rewrite insert_name_in, IH. split; intros [H|H]; auto. Qed.
Lemma sorted_names_asc l : asc (sorted_names l).
Proof. induction l as [|n l IH]; cbn; [constructor|]. apply insert_name_asc. exact IH. Qed.
Lemma asc_nodup l : asc l -> NoDup l.
Proof.
  induction 1 as [|a l F A IH]; constructor; [|exact IH]. intros I. rewrite Forall_forall in F.
  specialize (F a I). rewrite compare_refl in F. discriminate.
Qed.
Lemma asc_ascending l : asc l -> ascending l.
Proof.
  induction 1 as [|a l F A IH]; intros i j x y L X Y; [destruct i; discriminate|].
  destruct j as [|j]; [lia|]. destruct i as [|i]; cbn in X, Y.
  - injection X as <-. rewrite Forall_forall in F. apply F. eapply nth_error_In; eassumption.
  - apply (IH i j); auto. lia.
Qed.

Section Walk.
Variables (V op : Type).
Local Notation expr := (expr V op).
Local Notation item := (item V op).
Local Notation functor := (functor V op).
Local Notation walk := (walk V op).

(** ** Expressions *)

Lemma expr_rect' (P : expr -> Prop) :
  (forall v, P (Lit v)) -> (forall c n, P (Input c n)) -> P Token -> (forall k, P (Leaf k)) ->
  (forall k, P (Placeholder k)) -> (forall o args, Forall P args -> P (Call o args)) -> forall e, P e.
Proof.
  intros H1 H2 H3 H4 H5 H6. fix IH 1. intros [v|c n| |k|k|o args]; [apply H1|apply H2|apply H3|apply H4|apply H5|].
  apply H6. induction args as [|a args IHa]; constructor; [apply IH|exact IHa].
Qed.

Lemma names_in_iff c n (e : expr) : In n (names_in c e) <-> occurs c n e.
Proof.
  induction e as [v|c' m| |k|k|o args IH] using expr_rect'; cbn [names_in].
  1,3-5: split; [intros []|intros H; inversion H].
  - destruct (String.eqb_spec c c') as [->|N].
    + cbn. split; [intros [<-|[]]; constructor|]. intros H. inversion H; auto.
    + cbn. split; [intros []|]. intros H. inversion H; congruence.
  - rewrite in_flat_map. split.
    + intros (a & I & H). rewrite Forall_forall in IH. apply (IH a I) in H. econstructor; eassumption.
    + intros H. inversion H as [|o' args' a I H']; subst. exists a. split; [exact I|]. rewrite Forall_forall in IH.
      apply (IH a I). exact H'.
Qed.
Lemma legal_iff (e : expr) : legal e = false <-> strange e.
Proof.
  induction e as [v|c m| |k|k|o args IH] using expr_rect'; cbn [legal].
  - split; [discriminate|intros H; inversion H].
  - rewrite orb_false_iff. destruct (String.eqb_spec c "I"), (String.eqb_spec c "V"); split; intros H;
      try (destruct H; discriminate); try (inversion H; contradiction); auto. constructor; assumption.
  - split; [discriminate|intros H; inversion H].
  - split; [constructor|reflexivity].
  - split; [constructor|reflexivity].
  - rewrite Forall_forall in IH. split.
    + intros H. assert (exists a, In a args /\ legal a = false) as (a & I & L).
      { clear IH. induction args as [|a args IHa]; [discriminate|]. cbn in H. apply andb_false_iff in H.
        destruct H as [H|H]; [exists a; split; [left; reflexivity|exact H]|].
        destruct (IHa H) as (x & I & L). exists x. split; [right; exact I|exact L]. }
      apply (IH a I) in L. econstructor; eassumption.
    + intros H. inversion H as [| | |o' args' a I H']; subst. apply (IH a I) in H'.
      destruct (forallb legal args) eqn:E; [|reflexivity]. rewrite forallb_forall in E. rewrite (E a I) in H'. discriminate.
Qed.

Lemma lookup_in {A} n (l : list (string * A)) x : lookup n l = Some x -> In (n, x) l.
Proof.
  induction l as [|[m y] l IH]; cbn; [discriminate|]. destruct (String.eqb_spec n m) as [->|N].
  - intros H. injection H as ->. auto.
  - intros H. right. apply IH. exact H.
Qed.
Lemma lookup_none {A} n (l : list (string * A)) : lookup n l = None <-> ~ In n (map fst l).
Proof.
  induction l as [|[m y] l IH]; cbn; [tauto|]. destruct (String.eqb_spec n m) as [->|N].
  - split; [discriminate|]. intros H. exfalso. apply H. auto.
  - rewrite IH. split; intros H; [intros [E|E]; auto|]. intros E. apply H. auto.
Qed.

(** ** What a variable needs *)
Variable f : functor.

Lemma dependencies_ok x deps : dependencies (lookup x f) = Ok deps ->
  deps = mentioned (lookup x f) /\ (forall y, In y deps <-> needs f x y) /\ (forall e, lookup x f = Some (Quote e) -> ~ strange e).
Proof.
  unfold dependencies, needs. destruct (lookup x f) as [[e|v|v|v ps|v]|] eqn:E; cbn [mentioned]; intros H;
    try (injection H as <-; split; [reflexivity|]; split;
         [intros y; split; [intros []|intros (e' & A & _); discriminate]|intros e' A; discriminate]).
  unfold expr_names in H. destruct (legal e) eqn:L; [|discriminate]. injection H as <-. split; [reflexivity|]. split.
  - intros y. rewrite sorted_names_in, names_in_iff. split; [intros O; eauto|]. intros (e' & A & O). injection A as <-. exact O.
  - intros e' A S. injection A as <-. apply legal_iff in S. congruence.
Qed.
Lemma dependencies_err x e : dependencies (lookup x f) = Err e ->
  e = EExpr /\ exists q, lookup x f = Some (Quote q) /\ strange q.
Proof.
  unfold dependencies. destruct (lookup x f) as [[q|v|v|v ps|v]|]; intros H; try discriminate.
  unfold expr_names in H. destruct (legal q) eqn:L; [discriminate|]. injection H as <-. split; [reflexivity|].
  exists q. split; [reflexivity|]. apply legal_iff. exact L.
Qed.

(** ** The walk *)
Definition seen_names (w : walk) : list string := map fst (w_seen w).
Definition stack_names (w : walk) : list string := map fr_name (w_stack w).

(** A frame on which the frame of [above] lies *)
Inductive stack_ok (seen : list string) : option string -> list (frame V op) -> Prop :=
| StackNil a : stack_ok seen a []
| StackCons above fr st reached :
    fr_value fr = lookup (fr_name fr) f ->
    dependencies (lookup (fr_name fr) f) = Ok (reached ++ fr_deps fr) ->
    (forall d, In d reached -> In d seen \/ above = Some d) ->
    (forall d, above = Some d -> In d reached) ->
    reachable f (fr_name fr) ->
    stack_ok seen (Some (fr_name fr)) st ->
    stack_ok seen above (fr :: st).

Record inv (w : walk) : Prop := {
  i_visited : forall n, lookup n (w_status w) = Some Visited <-> In n (seen_names w);
  i_stack : forall n, lookup n (w_status w) = Some InStack <-> In n (stack_names w);
  i_nodup : NoDup (seen_names w);
  i_nodup_stack : NoDup (stack_names w);
  i_values : forall n v, In (n, v) (w_seen w) -> v = lookup n f;
  i_order : after_what_it_needs f (seen_names w);
  i_shape : stack_ok (seen_names w) None (w_stack w);
  i_reach : forall n, In n (seen_names w) -> reachable f n;
  i_plain : forall n e, In n (seen_names w) -> lookup n f = Some (Quote e) -> ~ strange e;
  i_bottom : match rev (stack_names w) with
             | n :: _ => n = "returns"
             | [] => exists l, seen_names w = l ++ ["returns"]
             end
}.

Lemma stack_ok_more seen seen' a st : (forall n, In n seen -> In n seen') -> stack_ok seen a st -> stack_ok seen' a st.
Proof. intros H S. induction S; econstructor; eauto. intros d D. destruct (H2 d D); auto. Qed.

(** A name in the stack leads to the top *)
Lemma stack_path seen a st : stack_ok seen a st -> forall d x, a = Some d -> In x (map fr_name st) ->
  clos_trans string (needs f) x d.
Proof.
  intros S. induction S as [a|above fr st reached VA D R U RE S IH]; intros d x E I; [destruct I|].
  assert (ND : needs f (fr_name fr) d).
  { destruct (dependencies_ok _ _ D) as (_ & DN & _). apply DN. apply in_or_app. left. apply U. exact E. }
  destruct I as [<-|I]; [constructor; exact ND|].
  eapply t_trans; [apply (IH (fr_name fr) x eq_refl I)|constructor; exact ND].
Qed.

Lemma after_snoc l x : after_what_it_needs f l -> (forall y, needs f x y -> In y l) -> after_what_it_needs f (l ++ [x]).
Proof.
  intros A N l1 z l2 E y Y. destruct (app_eq_app _ _ _ _ E) as (m & [[E1 E2]|[E1 E2]]).
  - destruct m as [|w m].
    + cbn in E2. injection E2 as <- _. rewrite app_nil_r in E1. subst. auto.
    + cbn in E2. injection E2 as <- E2. apply (A l1 z m); [exact E1|exact Y].
  - destruct m as [|w m].
    + cbn in E2. injection E2 as <- E2. rewrite app_nil_r in E1. subst. auto.
    + cbn in E2. injection E2 as <- E2. destruct m; discriminate.
Qed.

Definition measure (w : walk) : nat :=
  list_sum (map (fun fr => S (length (fr_deps fr))) (w_stack w))
  + list_sum (map (fun n => match lookup n (w_status w) with
                            | Some _ => 0
                            | None => S (length (mentioned (lookup n f)))
                            end) (universe f)).

Lemma universe_needs x y : needs f x y -> In y (universe f).
Proof.
  intros (e & L & O). unfold universe. apply nodup_In. right. apply in_flat_map. exists (x, Quote e).
  split; [apply lookup_in; exact L|]. cbn. apply sorted_names_in, names_in_iff. exact O.
Qed.

Lemma sum_update (g h : string -> nat) n k l : NoDup l -> In n l -> h n + k = g n -> (forall m, m <> n -> h m = g m) ->
  list_sum (map h l) + k = list_sum (map g l).
Proof.
  intros ND I E O. induction ND as [|m l NI ND IH]; [destruct I|]. cbn [map].
  change (list_sum (h m :: map h l)) with (h m + list_sum (map h l)).
  change (list_sum (g m :: map g l)) with (g m + list_sum (map g l)).
  destruct I as [->|I].
  - assert (map h l = map g l) as ->; [|lia]. apply map_ext_in. intros x X. apply O. intros ->. contradiction.
  - assert (m <> n) by (intros ->; contradiction). rewrite (O m H). specialize (IH I). lia.
Qed.
Lemma sum_le (g h : string -> nat) l : (forall m, h m <= g m) -> list_sum (map h l) <= list_sum (map g l).
Proof.
  intros H. induction l as [|m l IH]; [cbn; lia|]. cbn [map].
  change (list_sum (h m :: map h l)) with (h m + list_sum (map h l)).
  change (list_sum (g m :: map g l)) with (g m + list_sum (map g l)). specialize (H m). lia.
Qed.

(** What may be returned when something is wrong *)
Definition trouble (e : fn_error) : Prop :=
  match e with
  | ECycle x => reachable f x /\ on_cycle f x
  | EExpr => exists x q, reachable f x /\ lookup x f = Some (Quote q) /\ strange q
  | _ => False
  end.

Lemma stack_not_seen w n : inv w -> In n (stack_names w) -> ~ In n (seen_names w).
Proof. intros I A B. apply (i_stack w I) in A. apply (i_visited w I) in B. congruence. Qed.

Lemma round_ok w : inv w ->
  match round f w with
  | None => w_stack w = []
  | Some (Ok w') => inv w' /\ measure w' < measure w
  | Some (Err e) => trouble e
  end.
Proof.
  intros I. unfold round. destruct w as [st status seen]. cbn [w_stack w_status w_seen] in *.
  destruct st as [|[n v deps] st]; [reflexivity|]. cbn [fr_deps fr_name fr_value].
  pose proof (i_shape _ I) as SH. inversion SH as [|above fr st' reached VA D R U RE SO]; subst. cbn [fr_name fr_value fr_deps] in *.
  pose proof (i_nodup_stack _ I) as NDS. unfold stack_names in NDS. cbn [w_stack map fr_name] in NDS. inversion NDS as [|? ? N1 N2]; subst.
  assert (NS : ~ In n (map fst seen)).
  { apply (stack_not_seen _ _ I). left. reflexivity. }
  destruct deps as [|d deps].
  - (* pop *)
    rewrite app_nil_r in D. destruct (dependencies_ok _ _ D) as (_ & DN & PL).
    assert (ALL : forall y, needs f n y -> In y (map fst seen)).
    { intros y Y. apply DN in Y. destruct (R y Y) as [Q|Q]; [exact Q|discriminate]. }
    split.
    + constructor; unfold seen_names, stack_names in *; cbn [w_status w_stack w_seen lookup map fr_name] in *.
      * intros m. rewrite map_app. cbn [map fst]. rewrite in_app_iff. cbn [In].
        pose proof (i_visited _ I m) as H. cbn in H. unfold seen_names in H. cbn in H.
        destruct (String.eqb_spec m n) as [->|NE]; [split; auto|]. rewrite H. split; [auto|]. intros [Q|[Q|[]]]; [exact Q|congruence].
      * intros m. pose proof (i_stack _ I m) as H. unfold stack_names in H. cbn in H.
        destruct (String.eqb_spec m n) as [->|NE]; [split; [discriminate|intros; contradiction]|].
        rewrite H. split; [intros [Q|Q]; [congruence|exact Q]|auto].
      * rewrite map_app. cbn [map fst].
        pose proof (i_nodup _ I) as H. unfold seen_names in H. cbn in H.
        clear - H NS. revert NS. induction H as [|a l A H IH]; cbn; intros NS; [repeat constructor; auto|].
        constructor; [|apply IH; auto]. rewrite in_app_iff. cbn. intros [Q|[Q|[]]]; auto.
      * exact N2.
      * intros m x IN. apply in_app_or in IN. destruct IN as [IN|[E|[]]]; [apply (i_values _ I m x IN)|].
        injection E as <- <-. reflexivity.
      * rewrite map_app. cbn [map fst]. apply after_snoc; [apply (i_order _ I)|exact ALL].
      * assert (SO' : stack_ok (map fst (seen ++ [(n, lookup n f)])) None st).
        { inversion SO as [|above fr st0 reached0 VA0 D0 R0 U0 RE0 SO0]; subst; [constructor|].
          econstructor; [exact VA0|exact D0| | |exact RE0|].
          - intros x X. rewrite map_app, in_app_iff. left.
            destruct (R0 x X) as [Q|Q]; [left; exact Q|]. injection Q as <-. right. cbn. auto.
          - intros x X. discriminate.
          - eapply stack_ok_more; [|exact SO0]. intros x X. rewrite map_app, in_app_iff. auto. }
        exact SO'.
      * intros m IN. rewrite map_app, in_app_iff in IN. destruct IN as [IN|[<-|[]]]; [apply (i_reach _ I m IN)|exact RE].
      * intros m e IN. rewrite map_app, in_app_iff in IN. destruct IN as [IN|[<-|[]]]; [apply (i_plain _ I m e IN)|apply PL].
      * pose proof (i_bottom _ I) as B. unfold stack_names, seen_names in B. cbn [w_stack map fr_name rev] in B.
        destruct (rev (map fr_name st)) as [|m r] eqn:E; cbn in B; [|exact B].
        exists (map fst seen). rewrite map_app. cbn. rewrite B. reflexivity.
    + unfold measure. cbn [w_stack w_status map fr_deps length].
      change (list_sum (1 :: map (fun fr : frame V op => S (length (fr_deps fr))) st)) with (1 + list_sum (map (fun fr : frame V op => S (length (fr_deps fr))) st)).
      match goal with |- ?a + ?b < 1 + ?a + ?c => enough (b <= c) by lia end.
      apply sum_le. intros m. cbn [lookup]. destruct (String.eqb m n); [|reflexivity]. destruct (lookup m status); lia.
  - (* next dependency *)
    destruct (dependencies_ok _ _ D) as (_ & DN & PL).
    assert (ND : needs f n d) by (apply DN; rewrite in_app_iff; right; left; reflexivity).
    assert (RD : reachable f d) by (eapply rt_trans; [exact RE|constructor; exact ND]).
    assert (D' : dependencies (lookup n f) = Ok ((reached ++ [d]) ++ deps)) by (rewrite <- app_assoc; exact D).
    unfold reach. cbn [w_status w_stack w_seen].
    destruct (lookup d status) as [[|]|] eqn:ST.
    + (* cycle *)
      cbn [trouble]. split; [exact RD|]. apply (i_stack _ I) in ST. unfold stack_names in ST. cbn [w_stack map fr_name] in ST.
      destruct ST as [->|ST]; [constructor; exact ND|].
      eapply t_trans; [apply (stack_path _ _ _ SO n d eq_refl ST)|constructor; exact ND].
    + (* already seen *)
      apply (i_visited _ I) in ST.
      split.
      * destruct I as [I1 I2 I3 I4 I5 I6 I7 I8 I9 I10]. constructor; auto.
        cbn [w_stack]. econstructor; cbn [fr_value fr_name fr_deps]; [reflexivity|exact D'| |intros x X; discriminate|exact RE|exact SO].
        intros x X. apply in_app_or in X. destruct X as [X|[<-|[]]]; [apply R; exact X|left; exact ST].
      * unfold measure. cbn [w_stack w_status map fr_deps length].
        change (list_sum (S (S (length deps)) :: ?l)) with (S (S (length deps)) + list_sum l).
        change (list_sum (S (length deps) :: ?l)) with (S (length deps) + list_sum l). lia.
    + (* new *)
      destruct (dependencies (lookup d f)) as [deps2|e] eqn:DD.
      * destruct (dependencies_ok _ _ DD) as (DM & _ & PL2).
        assert (NDN : d <> n).
        { intros ->. assert (lookup n status = Some InStack) by (apply (i_stack _ I n); left; reflexivity). congruence. }
        assert (NST : ~ In d (map fr_name st)).
        { intros Q. assert (lookup d status = Some InStack) by (apply (i_stack _ I d); right; exact Q). congruence. }
        assert (NSE : ~ In d (map fst seen)).
        { intros Q. assert (lookup d status = Some Visited) by (apply (i_visited _ I d); exact Q). congruence. }
        split.
        -- destruct I as [I1 I2 I3 I4 I5 I6 I7 I8 I9 I10]. unfold seen_names, stack_names in *. cbn [w_status w_stack w_seen] in *.
           constructor; unfold seen_names, stack_names in *; cbn [w_status w_stack w_seen map fr_name lookup] in *; auto.
           ++ intros m. destruct (String.eqb_spec m d) as [->|NE]; [split; [discriminate|intros; contradiction]|apply I1].
           ++ intros m. destruct (String.eqb_spec m d) as [->|NE]; [split; [intros _; left; reflexivity|reflexivity]|]. rewrite I2. cbn. split; [auto|]. intros [Q|Q]; [congruence|exact Q].
           ++ constructor; [|exact I4]. intros [Q|Q]; [congruence|contradiction].
           ++ econstructor; cbn [fr_value fr_name fr_deps]; [reflexivity|exact (eq_trans DD eq_refl : _ = Ok ([] ++ deps2))| | |exact RD|].
              ** intros x [].
              ** intros x X. discriminate.
              ** econstructor; cbn [fr_value fr_name fr_deps]; [reflexivity|exact D'| | |exact RE|exact SO].
                 { intros x X. apply in_app_or in X. destruct X as [X|[<-|[]]]; [|right; reflexivity].
                   destruct (R x X) as [Q|Q]; [left; exact Q|discriminate]. }
                 { intros x X. injection X as <-. apply in_or_app. right. left. reflexivity. }
           ++ cbn [rev] in *. destruct (rev (map fr_name st)) as [|m r]; cbn in *; exact I10.
        -- unfold measure. cbn [w_stack w_status map fr_deps length].
           change (list_sum (S (S (length deps)) :: ?l)) with (S (S (length deps)) + list_sum l).
           change (list_sum (S (length deps2) :: S (length deps) :: ?l)) with (S (length deps2) + (S (length deps) + list_sum l)).
           match goal with |- _ + list_sum (map ?h _) < _ + list_sum (map ?g _) =>
             pose proof (sum_update g h d (S (length deps2)) (universe f) (NoDup_nodup _ _) (universe_needs _ _ ND)) as SU end.
           cbn beta in SU. cbn [lookup] in SU. rewrite String.eqb_refl, ST in SU. rewrite <- DM in SU.
           specialize (SU eq_refl). cbn [lookup]. 
           assert (SUM : forall m, m <> d -> match (if String.eqb m d then Some InStack else lookup m status) with Some _ => 0 | None => S (length (mentioned (lookup m f))) end
              = match lookup m status with Some _ => 0 | None => S (length (mentioned (lookup m f))) end).
           { intros m NE. destruct (String.eqb_spec m d); [congruence|reflexivity]. }
           specialize (SU SUM). lia.
      * destruct (dependencies_err _ _ DD) as (-> & q & Q & S). cbn [trouble]. exists d, q. auto.
Qed.

Lemma rounds_ok fuel : forall w, inv w -> measure w < fuel ->
  match rounds fuel f w with
  | Ok seen => exists w', inv w' /\ w_stack w' = [] /\ w_seen w' = seen
  | Err e => trouble e
  end.
Proof.
  induction fuel as [|fuel IH]; intros w I M; [lia|]. cbn [rounds]. pose proof (round_ok w I) as R.
  destruct (round f w) as [[w'|e]|].
  - destruct R as [R1 R2]. apply IH; [exact R1|lia].
  - exact R.
  - exists w. auto.
Qed.

Lemma after_trans l x y : after_what_it_needs f l -> clos_trans string (needs f) x y ->
  forall l1 l2, l = l1 ++ x :: l2 -> In y l1.
Proof.
  intros A T. apply clos_trans_t1n_iff in T. induction T as [x y N|x z y N T IH]; intros l1 l2 E.
  - apply (A l1 x l2 E y N).
  - pose proof (A l1 x l2 E z N) as I. apply in_split in I. destruct I as (a & b & ->).
    specialize (IH a (b ++ x :: l2)). rewrite <- app_assoc in E. specialize (IH E). apply in_or_app. auto.
Qed.

Lemma is_functor_iff : is_functor f = true <-> has_attr "returns" f /\ has_attr "__signature__" f.
Proof.
  assert (H : forall n, has n f = true <-> has_attr n f).
  { intros n. unfold has, has_attr. destruct (lookup n f) as [[e|v|v|v ps|v]|]; split; intros H; try discriminate; try reflexivity;
      try (eexists; split; [reflexivity|intros; discriminate]).
    - destruct H as (i & E & N). injection E as <-. exfalso. apply (N v). reflexivity.
    - destruct H as (i & E & _). discriminate. }
  unfold is_functor. rewrite andb_true_iff, !H. reflexivity.
Qed.

Theorem for_each_ok :
  match for_each f with
  | Ok seen =>
      has_attr "returns" f /\ has_attr "__signature__" f
      /\ NoDup (map fst seen)
      /\ (forall x, In x (map fst seen) <-> reachable f x)
      /\ after_what_it_needs f (map fst seen)
      /\ (exists l, map fst seen = l ++ ["returns"])
      /\ (forall x v, In (x, v) seen -> v = lookup x f)
      /\ acyclic f /\ plain f
  | Err e => (e = EFunctor /\ ~ (has_attr "returns" f /\ has_attr "__signature__" f)) \/ trouble e
  end.
Proof.
  unfold for_each. destruct (is_functor f) eqn:F.
  2:{ cbn. left. split; [reflexivity|]. rewrite <- is_functor_iff. congruence. }
  cbn [negb]. apply is_functor_iff in F. unfold reach. cbn [w_status lookup w_stack w_seen].
  destruct (dependencies (lookup returns f)) as [deps|e] eqn:D.
  2:{ right. destruct (dependencies_err _ _ D) as (-> & q & Q & S). exists "returns", q. split; [apply rt_refl|auto]. }
  destruct (dependencies_ok _ _ D) as (DM & DN & PL).
  set (w := mkWalk [mkFrame returns (lookup returns f) deps] [(returns, InStack)] []).
  assert (I : inv w).
  { constructor; unfold seen_names, stack_names; cbn [w w_status w_seen w_stack map lookup fr_name].
    - intros n. destruct (String.eqb n returns); split; try discriminate; intros [].
    - intros n. destruct (String.eqb_spec n returns) as [->|N]; split; try discriminate; auto; try reflexivity.
      + intros _. left. reflexivity.
      + intros [H|[]]. congruence.
    - constructor.
    - repeat constructor. intros [].
    - intros n v [].
    - intros l1 x l2 E. destruct l1; discriminate.
    - econstructor; cbn [fr_name fr_value fr_deps]; [reflexivity|exact (eq_trans D eq_refl : _ = Ok ([] ++ deps))| | |apply rt_refl|constructor].
      + intros d [].
      + intros d H. discriminate.
    - intros n [].
    - intros n e [].
    - reflexivity. }
  assert (M : measure w < enough f).
  { unfold measure, enough. cbn [w w_status w_stack map fr_deps].
    change (list_sum [S (length deps)]) with (S (length deps) + 0).
    match goal with |- _ + list_sum (map ?h _) < _ + list_sum (map ?g _) =>
      pose proof (sum_update g h returns (S (length deps)) (universe f) (NoDup_nodup _ _)) as SU end.
    cbn beta in SU. cbn [lookup] in SU. rewrite String.eqb_refl in SU. rewrite <- DM in SU.
    assert (IU : In returns (universe f)) by (unfold universe; apply nodup_In; left; reflexivity).
    specialize (SU IU eq_refl). cbn [lookup].
    assert (SUM : forall m, m <> returns -> match (if String.eqb m returns then Some InStack else None) with Some _ => 0 | None => S (length (mentioned (lookup m f))) end
       = S (length (mentioned (lookup m f)))).
    { intros m NE. destruct (String.eqb_spec m returns); [congruence|reflexivity]. }
    specialize (SU SUM). lia. }
  pose proof (rounds_ok _ w I M) as R. fold w. destruct (rounds (enough f) f w) as [seen|e]; [|right; exact R].
  destruct R as (w' & I' & SN & <-). split; [apply F|]. split; [apply F|].
  pose proof (i_bottom _ I') as B. unfold stack_names in B. rewrite SN in B. cbn in B. unfold seen_names in B.
  assert (RT : In "returns" (seen_names w')).
  { destruct B as [l B]. unfold seen_names. rewrite B. apply in_or_app. right. left. reflexivity. }
  assert (CL : forall x, reachable f x -> In x (seen_names w')).
  { intros x X. apply clos_rt_rtn1 in X. induction X as [|y z N X IH]; [exact RT|].
    apply in_split in IH. destruct IH as (l1 & l2 & E). pose proof (i_order _ I' l1 y l2 E z N) as Q.
    rewrite E. apply in_or_app. left. exact Q. }
  split; [apply (i_nodup _ I')|]. split; [intros x; split; [apply (i_reach _ I')|apply CL]|].
  split; [apply (i_order _ I')|]. split; [exact B|]. split; [intros x v; apply (i_values _ I')|]. split.
  - intros x X C. apply CL in X. apply in_split in X. destruct X as (l1 & l2 & E).
    pose proof (after_trans _ _ _ (i_order _ I') C l1 l2 E) as Q. pose proof (i_nodup _ I') as ND. rewrite E in ND.
    apply NoDup_remove_2 in ND. apply ND. apply in_or_app. left. exact Q.
  - intros x e X. apply (i_plain _ I'). apply CL. exact X.
Qed.

Lemma for_each_total : has_attr "returns" f -> has_attr "__signature__" f -> acyclic f -> plain f ->
  exists seen, for_each f = Ok seen.
Proof.
  intros R S A P. pose proof for_each_ok as H. destruct (for_each f) as [seen|e]; [eauto|]. exfalso.
  destruct H as [[_ H]|H]; [apply H; auto|]. destruct e; try contradiction.
  - destruct H as (x & q & H1 & H2 & H3). apply (P x q H1 H2 H3).
  - destruct H as [H1 H2]. apply (A _ H1 H2).
Qed.

Lemma after_ind (P : string -> Prop) l : after_what_it_needs f l ->
  (forall x, In x l -> (forall y, needs f x y -> In y l /\ P y) -> P x) -> forall x, In x l -> P x.
Proof.
  intros A H. assert (Q : forall l1 l2, l = l1 ++ l2 -> forall x, In x l1 -> P x).
  { induction l1 as [|z l1 IH] using rev_ind; intros l2 E x I; [destruct I|].
    rewrite <- app_assoc in E. cbn in E. apply in_app_or in I. destruct I as [I|[<-|[]]].
    - apply (IH _ E x I).
    - apply H; [rewrite E; apply in_or_app; right; left; reflexivity|]. intros y Y.
      pose proof (A l1 z l2 E y Y) as IY. split; [rewrite E; apply in_or_app; auto|]. apply (IH _ E y IY). }
  apply (Q l []). symmetry. apply app_nil_r.
Qed.

(** ** Creating *)

Lemma validate_ok names : validate_defined f names = Ok tt <->
  has_attr "returns" f /\ has_attr "__signature__" f /\ acyclic f /\ plain f /\ (forall x, reachable f x -> In x names).
Proof.
  unfold validate_defined. pose proof for_each_ok as H. pose proof for_each_total as T.
  destruct (for_each f) as [seen|e].
  - destruct H as (H1 & H2 & H3 & H4 & H5 & H6 & H7 & H8 & H9).
    destruct (filter _ (map fst seen)) as [|u l] eqn:E.
    + split; [intros _|reflexivity]. repeat (split; [assumption|]). intros x X. apply H4 in X.
      destruct (in_dec string_dec x names) as [I|N]; [exact I|]. exfalso.
      assert (Q : In x (filter (fun n => negb (existsb (String.eqb n) names)) (map fst seen))).
      { apply filter_In. split; [exact X|]. apply negb_true_iff. destruct (existsb (String.eqb x) names) eqn:EX; [|reflexivity].
        apply existsb_exists in EX. destruct EX as (y & IY & Y). apply String.eqb_eq in Y. subst. contradiction. }
      rewrite E in Q. destruct Q.
    + split; [discriminate|]. intros (_ & _ & _ & _ & H). exfalso.
      assert (Q : In u (filter (fun n => negb (existsb (String.eqb n) names)) (map fst seen))) by (rewrite E; left; reflexivity).
      apply filter_In in Q. destruct Q as [Q1 Q2]. apply H4, H in Q1. apply negb_true_iff in Q2.
      enough (existsb (String.eqb u) names = true) by congruence. apply existsb_exists. exists u. split; [exact Q1|apply String.eqb_refl].
  - split; [discriminate|]. intros (A & B & C & D & _). destruct (T A B C D) as [s E]. discriminate.
Qed.

(** ** Inlining *)
Variable op_with_bag : op.

Lemma inline_call (vars : list (string * expr)) o args e' :
  inline vars (Call o args) = Ok e' <-> exists args', e' = Call o args' /\ Forall2 (fun a a' => inline vars a = Ok a') args args'.
Proof.
  cbn [inline].
  match goal with |- match ?g args with _ => _ end = _ <-> _ => set (go := g) end.
  assert (G : forall l l', go l = Ok l' <-> Forall2 (fun a a' => inline vars a = Ok a') l l').
  { induction l as [|a l IH]; intros l'; cbn.
    - split; [intros H; injection H as <-; constructor|intros H; inversion H; reflexivity].
    - split.
      + destruct (inline vars a) as [a'|e] eqn:E; [|discriminate]. destruct (go l) as [l''|e] eqn:F; [|discriminate].
        intros H. injection H as <-. constructor; [exact E|]. apply IH. reflexivity.
      + intros H. inversion H as [|? a' ? l'' A B]; subst. rewrite A. apply IH in B. rewrite B. reflexivity. }
  split.
  - destruct (go args) as [args'|e] eqn:E; [|discriminate]. intros H. injection H as <-. exists args'. split; [reflexivity|apply G; exact E].
  - intros (args' & -> & H). apply G in H. rewrite H. reflexivity.
Qed.

Lemma inline_total vars (e : expr) : (forall y, occurs "V" y e -> lookup y vars <> None) -> exists e', inline vars e = Ok e'.
Proof.
  induction e as [v|c n| |k|k|o args IH] using expr_rect'; intros H; try (eexists; reflexivity).
  - cbn [inline]. destruct (String.eqb_spec c "V") as [->|N]; [|eexists; reflexivity].
    destruct (lookup n vars) eqn:E; [eexists; reflexivity|]. exfalso. apply (H n); [constructor|exact E].
  - assert (exists args', Forall2 (fun a a' => inline vars a = Ok a') args args') as (args' & F).
    { induction IH as [|a l A B C]; [exists []; constructor|].
      destruct A as [a' E]; [intros y O; apply H; econstructor; [left; reflexivity|exact O]|].
      destruct C as [l' F]; [intros y O; inversion O as [|? ? z I O']; subst; apply H; econstructor; [right; exact I|exact O']|].
      exists (a' :: l'). constructor; assumption. }
    exists (Call o args'). apply inline_call. eauto.
Qed.

Lemma Forall2_In_l {A B} (R : A -> B -> Prop) l l' a : Forall2 R l l' -> In a l -> exists b, In b l' /\ R a b.
Proof. induction 1 as [|x y l l' H F IH]; intros []; [subst; exists y; cbn; auto|]. destruct (IH H0) as (b & I & Q). exists b; cbn; auto. Qed.
Lemma Forall2_In_r {A B} (R : A -> B -> Prop) l l' b : Forall2 R l l' -> In b l' -> exists a, In a l /\ R a b.
Proof. induction 1 as [|x y l l' H F IH]; intros []; [subst; exists x; cbn; auto|]. destruct (IH H0) as (a & I & Q). exists a; cbn; auto. Qed.

Lemma inline_occurs vars c n (e : expr) : forall e', inline vars e = Ok e' ->
  occurs c n e' <-> (c <> "V" /\ occurs c n e) \/ exists y ey, occurs "V" y e /\ lookup y vars = Some ey /\ occurs c n ey.
Proof.
  induction e as [v|c' m| |k|k|o args IH] using expr_rect'; intros e' H.
  1,3-5: cbn [inline] in H; injection H as <-; split; [intros O; inversion O|intros [[_ O]|(y & ey & O & _)]; inversion O].
  - cbn [inline] in H. destruct (String.eqb_spec c' "V") as [->|N].
    + destruct (lookup m vars) as [ey|] eqn:E; [|discriminate]. injection H as <-. split.
      * intros O. right. exists m, ey. split; [constructor|auto].
      * intros [[NV O]|(y & ey' & O & L & O')]; inversion O; subst; congruence.
    + injection H as <-. split.
      * intros O. left. inversion O; subst. split; [exact N|constructor].
      * intros [[_ O]|(y & ey & O & _)]; [exact O|]. inversion O; subst; congruence.
  - apply inline_call in H. destruct H as (args' & -> & F). rewrite Forall_forall in IH. split.
    + intros O. inversion O as [|? ? a' I O']; subst. destruct (Forall2_In_r _ _ _ _ F I) as (a & IA & E).
      apply (IH a IA _ E) in O'. destruct O' as [[NV O']|(y & ey & Y & L & O')].
      * left. split; [exact NV|]. econstructor; eassumption.
      * right. exists y, ey. split; [econstructor; eassumption|auto].
    + intros [[NV O]|(y & ey & O & L & O')]; inversion O as [|? ? a I OA]; subst;
        destruct (Forall2_In_l _ _ _ _ F I) as (a' & IA & E).
      * econstructor; [exact IA|]. apply (IH a I _ E). auto.
      * econstructor; [exact IA|]. apply (IH a I _ E). right. exists y, ey. auto.
Qed.

Lemma inline_strange vars (e : expr) : forall e', inline vars e = Ok e' ->
  strange e' -> strange e \/ exists y ey, occurs "V" y e /\ lookup y vars = Some ey /\ strange ey.
Proof.
  induction e as [v|c' m| |k|k|o args IH] using expr_rect'; intros e' H S.
  1,3-5: cbn [inline] in H; injection H as <-; left; exact S.
  - cbn [inline] in H. destruct (String.eqb_spec c' "V") as [->|N]; [|injection H as <-; left; exact S].
    destruct (lookup m vars) as [ey|] eqn:E; [|discriminate]. injection H as <-. right. exists m, ey. split; [constructor|auto].
  - apply inline_call in H. destruct H as (args' & -> & F). rewrite Forall_forall in IH.
    inversion S as [| | |? ? a' I S']; subst. destruct (Forall2_In_r _ _ _ _ F I) as (a & IA & E).
    destruct (IH a IA _ E S') as [Q|(y & ey & Y & L & Q)].
    + left. econstructor; eassumption.
    + right. exists y, ey. split; [econstructor; eassumption|auto].
Qed.

Lemma inline_mono vars vars' (e : expr) : (forall y ey, lookup y vars = Some ey -> lookup y vars' = Some ey) ->
  forall e', inline vars e = Ok e' -> inline vars' e = Ok e'.
Proof.
  intros M. induction e as [v|c' m| |k|k|o args IH] using expr_rect'; intros e' H; try exact H.
  - cbn [inline] in *. destruct (String.eqb c' "V"); [|exact H].
    destruct (lookup m vars) as [ey|] eqn:E; [|discriminate]. rewrite (M _ _ E). exact H.
  - apply inline_call in H. destruct H as (args' & -> & F). apply inline_call. exists args'. split; [reflexivity|].
    clear - IH F. revert args' F. induction IH as [|a l A B C]; intros args' F; inversion F; subst; constructor; auto.
Qed.

(** The variables inlined so far *)
Definition resolved (vars : list (string * expr)) : Prop :=
  forall x e, lookup x vars = Some e -> exists i, lookup x f = Some i /\ variable_expr op_with_bag vars i = Ok e.

Lemma variable_expr_mono vars vars' (i : item) e : (forall y ey, lookup y vars = Some ey -> lookup y vars' = Some ey) ->
  variable_expr op_with_bag vars i = Ok e -> variable_expr op_with_bag vars' i = Ok e.
Proof. intros M H. destruct i; try exact H. eapply inline_mono; eassumption. Qed.

Lemma inline_variables_ok order : forall vars,
  NoDup order -> (forall x, In x order -> lookup x vars = None) -> resolved vars ->
  (forall l1 x l2, order = l1 ++ x :: l2 -> forall y, needs f x y -> In y l1 \/ lookup y vars <> None) ->
  match inline_variables op_with_bag f order vars with
  | Ok vars' => resolved vars' /\ (forall x, In x order -> lookup x f <> None)
      /\ (forall x, lookup x vars' <> None <-> In x order \/ lookup x vars <> None)
  | Err e => exists x, In x order /\ lookup x f = None /\ e = EAttr x
  end.
Proof.
  induction order as [|n order IH]; intros vars ND DIS RES DEP; cbn [inline_variables].
  - split; [exact RES|]. split; [intros x []|]. intros x. cbn. tauto.
  - inversion ND as [|? ? N1 N2]; subst. destruct (lookup n f) as [i|] eqn:L.
    2:{ exists n. split; [left; reflexivity|auto]. }
    assert (exists e, variable_expr op_with_bag vars i = Ok e) as [e E].
    { destruct i; try (eexists; reflexivity). cbn [variable_expr]. apply inline_total. intros y Y.
      destruct (DEP [] n order eq_refl y) as [[]|Q]; [exists e; auto|exact Q]. }
    rewrite E.
    assert (M : forall y ey, lookup y vars = Some ey -> lookup y ((n, e) :: vars) = Some ey).
    { intros y ey Y. cbn. destruct (String.eqb_spec y n) as [->|]; [|exact Y]. rewrite (DIS n) in Y by (left; reflexivity). discriminate. }
    specialize (IH ((n, e) :: vars) N2).
    assert (D1 : forall x, In x order -> lookup x ((n, e) :: vars) = None).
    { intros x X. cbn. destruct (String.eqb_spec x n) as [->|]; [contradiction|]. apply DIS. right. exact X. }
    assert (R1 : resolved ((n, e) :: vars)).
    { intros x ex. cbn. destruct (String.eqb_spec x n) as [->|].
      - intros H. injection H as <-. exists i. split; [exact L|]. eapply variable_expr_mono; [exact M|exact E].
      - intros H. destruct (RES x ex H) as (j & J & Q). exists j. split; [exact J|]. eapply variable_expr_mono; [exact M|exact Q]. }
    assert (P1 : forall l1 x l2, order = l1 ++ x :: l2 -> forall y, needs f x y -> In y l1 \/ lookup y ((n, e) :: vars) <> None).
    { intros l1 x l2 -> y Y. destruct (DEP (n :: l1) x l2 eq_refl y Y) as [[<-|Q]|Q].
      - right. cbn. rewrite String.eqb_refl. discriminate.
      - left. exact Q.
      - right. cbn. destruct (String.eqb y n); [discriminate|exact Q]. }
    specialize (IH D1 R1 P1). destruct (inline_variables op_with_bag f order ((n, e) :: vars)) as [vars'|er].
    + destruct IH as (A & B & C). split; [exact A|]. split.
      * intros x [<-|X]; [congruence|apply B; exact X].
      * intros x. rewrite C. cbn. destruct (String.eqb_spec x n) as [->|NE].
        -- split; [left; left; reflexivity|]. right. discriminate.
        -- split; [intros [Q|Q]; auto|]. intros [[Q|Q]|Q]; [congruence|auto|auto].
    + destruct IH as (x & X & Q). exists x. split; [right; exact X|exact Q].
Qed.

(** What a variable wants *)
Definition wants_at (x n : string) : Prop :=
  exists z i, clos_refl_trans string (needs f) x z /\ lookup z f = Some i /\
    match i with
    | Quote e => occurs "I" n e
    | Primitive _ => False
    | _ => n = "__bag"
    end.

Variable token : V.
Variable eval_op : op -> list (option V) -> option V.

Lemma eval_inline vars env (e : expr) : forall e', inline vars e = Ok e' ->
  eval token eval_op env e' =
  eval token eval_op (fun c n => if String.eqb c "V" then match lookup n vars with Some ey => eval token eval_op env ey | None => None end
                                 else env c n) e.
Proof.
  induction e as [v|c' m| |k|k|o args IH] using expr_rect'; intros e' H.
  1,3-5: cbn [inline] in H; injection H as <-; reflexivity.
  - cbn [inline eval] in *. destruct (String.eqb c' "V") eqn:C.
    + destruct (lookup m vars) as [ey|] eqn:E; [|discriminate]. injection H as <-. reflexivity.
    + injection H as <-. reflexivity.
  - apply inline_call in H. destruct H as (args' & -> & F). cbn [eval]. f_equal.
    clear - IH F. revert args' F. induction IH as [|a l A B C]; intros args' F; inversion F; subst; cbn [map]; [reflexivity|].
    f_equal; auto.
Qed.
Lemma eval_ext env env' (e : expr) : (forall c n, occurs c n e -> env c n = env' c n) ->
  eval token eval_op env e = eval token eval_op env' e.
Proof.
  induction e as [v|c' m| |k|k|o args IH] using expr_rect'; intros H; try reflexivity.
  - cbn. apply H. constructor.
  - cbn [eval]. f_equal. apply map_ext_in. intros a A. rewrite Forall_forall in IH. apply IH; [exact A|].
    intros c n O. apply H. econstructor; eassumption.
Qed.

Theorem inline_all_ok : has_attr "returns" f -> has_attr "__signature__" f ->
  match inline_all op_with_bag f with
  | Ok e => acyclic f /\ plain f /\ defined f /\ legal e = true /\ names_in "V" e = []
      /\ (forall n, In n (names_in "I" e) <-> wants f n)
      /\ forall (bag : Type) (with_bag : bag -> V -> V) (b : bag) (inputs : list (string * V)) bv,
         (forall v, eval_op op_with_bag [Some v; Some bv] = Some (with_bag b v)) ->
         (wants f "__bag" -> lookup "__bag" inputs = Some bv) ->
         exists den, denotes token eval_op with_bag b f (fun n => lookup n inputs) den
           /\ eval token eval_op (given inputs) e = den "returns"
  | Err e => trouble e \/ exists x, e = EAttr x /\ reachable f x /\ lookup x f = None
  end.
Proof.
  intros HR HS. unfold inline_all. pose proof for_each_ok as FE. destruct (for_each f) as [seen|e].
  2:{ destruct FE as [[_ Q]|T]; [exfalso; apply Q; auto|left; exact T]. }
  destruct FE as (_ & _ & ND & RE & AF & (l & LAST) & VAL & AC & PL).
  assert (RL : rev (map fst seen) = returns :: rev l) by (rewrite LAST, rev_app_distr; reflexivity).
  cbv zeta. rewrite RL. rewrite String.eqb_refl.
  pose proof (inline_variables_ok (map fst seen) [] ND) as IV.
  assert (I1 : forall x, In x (map fst seen) -> lookup x (@nil (string * expr)) = None) by reflexivity.
  assert (I2 : resolved []) by (intros x e H; discriminate).
  specialize (IV I1 I2). assert (I3 : forall l1 x l2, map fst seen = l1 ++ x :: l2 -> forall y, needs f x y -> In y l1 \/ lookup y (@nil (string * expr)) <> None).
  { intros l1 x l2 E y Y. left. apply (AF l1 x l2 E y Y). }
  specialize (IV I3). destruct (inline_variables op_with_bag f (map fst seen) []) as [vars|e].
  2:{ right. destruct IV as (x & X & N & ->). exists x. split; [reflexivity|]. split; [apply RE; exact X|exact N]. }
  destruct IV as (RES & DEF & DOM).
  assert (RT : In "returns" (map fst seen)) by (rewrite LAST; apply in_or_app; right; left; reflexivity).
  destruct (lookup "returns" vars) as [e|] eqn:LE.
  2:{ exfalso. apply (proj2 (DOM "returns")); [left; exact RT|exact LE]. }
  assert (DEF' : defined f) by (intros x X; apply DEF, RE; exact X).
  (* syntax *)
  assert (SYN : forall x, In x (map fst seen) -> forall ex, lookup x vars = Some ex ->
     legal ex = true /\ names_in "V" ex = [] /\ (forall n, In n (names_in "I" ex) <-> wants_at x n)).
  { apply (after_ind (fun x => forall ex, lookup x vars = Some ex ->
     legal ex = true /\ names_in "V" ex = [] /\ (forall n, In n (names_in "I" ex) <-> wants_at x n)) _ AF).
    intros x X IH ex EX. destruct (RES x ex EX) as (i & LI & VE). destruct i as [q|v|v|v ps|v]; cbn [variable_expr] in VE.
    2-4: injection VE as <-; cbn; split; [reflexivity|]; split; [reflexivity|]; intros n; split;
         [intros [<-|[]]; exists x; eexists; split; [apply rt_refl|split; [exact LI|reflexivity]]|];
         intros (z & j & T & LJ & W); apply clos_rt_rt1n in T; inversion T as [|y ? N T']; subst;
         [rewrite LI in LJ; injection LJ as <-; auto|]; destruct N as (q & Q & _); congruence.
    - assert (SUB : forall y, occurs "V" y q -> exists ey, lookup y vars = Some ey /\ In y (map fst seen)).
      { intros y O. assert (NY : needs f x y) by (exists q; auto). destruct (IH y NY) as [IY _].
        destruct (lookup y vars) as [ey|] eqn:EY; [eauto|]. exfalso. apply (proj2 (DOM y)); [left; exact IY|exact EY]. }
      split; [|split].
      + destruct (legal ex) eqn:LX; [reflexivity|]. exfalso. apply legal_iff in LX.
        destruct (inline_strange vars q ex VE LX) as [S|(y & ey & O & LY & S)].
        * apply (PL x q); [apply RE; exact X|exact LI|exact S].
        * assert (NY : needs f x y) by (exists q; auto). destruct (IH y NY) as [_ H]. destruct (H ey LY) as [H1 _].
          apply legal_iff in S. congruence.
      + destruct (names_in "V" ex) as [|n rest] eqn:NV; [reflexivity|]. exfalso.
        assert (O : occurs "V" n ex) by (apply names_in_iff; rewrite NV; left; reflexivity).
        apply (inline_occurs vars "V" n q ex VE) in O. destruct O as [[O _]|(y & ey & O & LY & O')]; [apply O; reflexivity|].
        assert (NY : needs f x y) by (exists q; auto). destruct (IH y NY) as [_ H]. destruct (H ey LY) as (_ & H2 & _).
        apply names_in_iff in O'. rewrite H2 in O'. destruct O'.
      + intros n. rewrite names_in_iff. rewrite (inline_occurs vars "I" n q ex VE). split.
        * intros [[_ O]|(y & ey & O & LY & O')].
          -- exists x, (Quote q). split; [apply rt_refl|auto].
          -- assert (NY : needs f x y) by (exists q; auto). destruct (IH y NY) as [_ H]. destruct (H ey LY) as (_ & _ & H3).
             apply names_in_iff in O'. apply H3 in O'. destruct O' as (z & j & T & J). exists z, j. split; [|exact J].
             eapply rt_trans; [constructor; exact NY|exact T].
        * intros (z & j & T & LJ & W). apply clos_rt_rt1n in T. inversion T as [|y ? N T']; subst.
          -- rewrite LI in LJ. injection LJ as <-. left. split; [discriminate|exact W].
          -- right. destruct N as (q' & LQ & O). rewrite LI in LQ. injection LQ as <-. destruct (SUB y O) as (ey & EY & _).
             exists y, ey. split; [exact O|]. split; [exact EY|]. assert (NY : needs f x y) by (exists q; auto).
             destruct (IH y NY) as [_ H]. destruct (H ey EY) as (_ & _ & H3). apply names_in_iff. apply H3.
             exists z, j. split; [apply clos_rt1n_rt; exact T'|auto].
    - injection VE as <-. cbn. split; [reflexivity|]. split; [reflexivity|]. intros n. split; [intros []|].
      intros (z & j & T & LJ & W). apply clos_rt_rt1n in T. inversion T as [|y ? N T']; subst.
      + rewrite LI in LJ. injection LJ as <-. destruct W.
      + destruct N as (q & Q & _). congruence. }
  destruct (SYN "returns" RT e LE) as (S1 & S2 & S3).
  unfold returns. rewrite LE.
  split; [exact AC|]. split; [exact PL|]. split; [exact DEF'|]. split; [exact S1|]. split; [exact S2|]. split; [exact S3|].
  intros bag with_bag b inputs bv WB BG.
  set (den := fun x => match lookup x vars with Some ex => eval token eval_op (given inputs) ex | None => None end).
  exists den. split; [|unfold den; rewrite LE; reflexivity].
  intros x i X LI. unfold den at 1. apply RE in X.
  destruct (lookup x vars) as [ex|] eqn:EX.
  2:{ exfalso. apply (proj2 (DOM x)); [left; exact X|exact EX]. }
  destruct (RES x ex EX) as (j & LJ & VE). rewrite LI in LJ. injection LJ as <-.
  assert (BG' : (forall v, i <> Primitive v) -> (forall q, i <> Quote q) -> lookup "__bag" inputs = Some bv).
  { intros NP NQ. apply BG. exists x, i. split; [apply RE; exact X|]. split; [exact LI|]. destruct i; try reflexivity; [exfalso; eapply NQ; reflexivity|exfalso; eapply NP; reflexivity]. }
  destruct i as [q|v|v|v ps|v]; cbn [variable_expr] in VE.
  2-4: injection VE as <-; cbn; unfold given; cbn; unfold self_bag; rewrite BG' by (intros; discriminate); apply WB.
  - rewrite (eval_inline vars (given inputs) q ex VE). apply eval_ext. intros c n O.
    destruct (String.eqb_spec c "V") as [->|NV]; [reflexivity|]. unfold given. destruct (String.eqb_spec c "I") as [->|NI]; [reflexivity|].
    exfalso. apply (PL x q); [apply RE; exact X|exact LI|]. clear - O NV NI. induction O; [constructor; assumption|econstructor; eassumption].
  - injection VE as <-. reflexivity.
Qed.

(** Outcomes are determined *)
Theorem denotes_unique (bag : Type) (with_bag : bag -> V -> V) (b : bag) inputs den den' :
  has_attr "returns" f -> has_attr "__signature__" f -> acyclic f -> plain f -> defined f ->
  denotes token eval_op with_bag b f inputs den -> denotes token eval_op with_bag b f inputs den' ->
  forall x, reachable f x -> den x = den' x.
Proof.
  intros HR HS AC PL DEF D D' x X. destruct (for_each_total HR HS AC PL) as [seen E].
  pose proof for_each_ok as FE. rewrite E in FE. destruct FE as (_ & _ & ND & RE & AF & _ & _ & _ & _).
  apply RE in X. revert x X. apply (after_ind (fun x => den x = den' x) _ AF). intros x X IH.
  apply RE in X. destruct (lookup x f) as [i|] eqn:L; [|exfalso; apply (DEF x X L)].
  rewrite (D x i X L), (D' x i X L). destruct i; try reflexivity. apply eval_ext. intros c n O.
  destruct (String.eqb_spec c "V") as [->|NV]; [|reflexivity]. apply IH. exists e. auto.
Qed.

End Walk.
