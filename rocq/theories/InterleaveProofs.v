(** Proofs about interleaved streams. *)
From Coq Require Import List Bool PeanoNat Lia.
From Verif Require Import ChainModel ChainSpec ChainProofs InterleaveModel InterleaveSpec.
Import ListNotations.
Local Open Scope nat_scope.

Lemma nth_update_same A (l : list A) i x y :
  nth_error l i = Some y -> nth_error (update l i x) i = Some x.
Proof.
  revert i; induction l as [|z l IH]; intros [|i] H; cbn in *; try discriminate; auto.
Qed.
Lemma nth_update_other A (l : list A) i j x :
  i <> j -> nth_error (update l i x) j = nth_error l j.
Proof.
  revert i j; induction l as [|z l IH]; intros [|i] [|j] H; cbn in *; auto; try lia.
Qed.

Lemma same_source_true a b : same_source a b = true <-> a = b.
Proof.
  destruct a as [i|], b as [j|]; cbn; try (split; congruence).
  rewrite Nat.eqb_eq. split; congruence.
Qed.

Local Arguments taken_from : simpl never.

Section Proofs.
  Variables value error : Type.
  Notation source := (source value error).
  Notation inter := (inter value error).
  Notation world := (world value error).
  Implicit Types (x : source) (s : inter) (w : world).

  Lemma taken_app (a : option nat) (l m : list (option nat * value)) :
    taken_from a (l ++ m) = taken_from a l ++ taken_from a m.
  Proof. unfold taken_from. now rewrite filter_app, map_app. Qed.
  Lemma taken_one_same a (v : value) : taken_from a [(a, v)] = [v].
  Proof.
    unfold taken_from. cbn. replace (same_source a a) with true; [reflexivity|].
    symmetry. now apply same_source_true.
  Qed.
  Lemma taken_one_other a b (v : value) : a <> b -> taken_from a [(b, v)] = [].
  Proof.
    intros H. unfold taken_from. cbn. destruct (same_source a b) eqn:E; [|reflexivity].
    now apply same_source_true in E.
  Qed.
  Lemma taken_none a (l : list (option nat * value)) :
    (forall v, ~ In (a, v) l) -> taken_from a l = [].
  Proof.
    intros H. induction l as [|[b v] l IH]; [reflexivity|].
    change ((b, v) :: l) with ([(b, v)] ++ l). rewrite taken_app, IH.
    - rewrite taken_one_other; [reflexivity|]. intros ->. apply (H v). now left.
    - intros u Hu. apply (H u). now right.
  Qed.

  Definition source_ok (taken : list value) (flagged : bool) (stuck : Prop) x : Prop :=
    src_position x <= length (src_log x) /\
    match src_place x with
    | AtRead | AtSubscribe => taken = firstn (src_position x) (src_log x)
    | AtWrite v => exists q, src_position x = S q /\ nth_error (src_log x) q = Some v /\
                             taken = firstn q (src_log x)
    | AtClose e => src_closed x = Some (Err e) /\ taken = src_log x
    | Waiting => src_closed x = None /\ src_position x = length (src_log x) /\ taken = src_log x
    | Gone =>
        (src_closed x = Some OK /\ taken = src_log x) \/
        (exists e, src_closed x = Some (Err e) /\ taken = src_log x /\ flagged = true) \/
        (stuck /\ exists q, taken = firstn q (src_log x))
    end.

  Definition stuck s : Prop := out_closed s <> None \/ expired s = true.

  Definition evidence s w (e : error) : Prop :=
    In e (w_errors w) \/
    exists i x, nth_error (sources s) i = Some x /\ src_closed x = Some (Err e) /\
                taken_from (Some i) (out s) = src_log x /\ src_place x = Gone.

  Definition src_content x : content value error := (src_log x, src_closed x).

  Record inv s w : Prop := {
    v_streams : w_streams w = map src_content (sources s);
    v_in_use : w_in_use w = in_use s;
    v_sources : forall i x, nth_error (sources s) i = Some x ->
      source_ok (taken_from (Some i) (out s)) (flag s) (stuck s) x;
    v_tags : forall i v, In (Some i, v) (out s) -> i < length (sources s);
    v_open : flag s = false -> closer s = None /\ out_closed s = None /\ w_errors w = [];
    v_closer : forall st, closer s = Some st ->
      flag s = true /\ out_closed s = None /\ exists e, st = Err e /\ evidence s w e;
    v_error : forall e, out_closed s = Some (Err e) -> evidence s w e;
    v_ok : out_closed s = Some OK ->
      in_use s = false /\ taken_from None (out s) = w_items w /\ w_errors w = [] /\
      forall i x, nth_error (sources s) i = Some x ->
        src_closed x = Some OK /\ taken_from (Some i) (out s) = src_log x /\ src_place x = Gone;
    v_flag : flag s = true -> closer s <> None \/ out_closed s <> None \/ expired s = true;
    v_items : prefix (taken_from None (out s)) (w_items w);
    v_all_items : out_closed s = None -> expired s = false ->
      taken_from None (out s) = w_items w;
    v_ended : ended s = true -> in_use s = false /\ flag s = true
  }.

  Lemma inv_make : inv make_inter (World [] [] [] true).
  Proof.
    constructor; cbn; auto; try discriminate; try tauto.
    - intros [|i] x; discriminate.
    - now exists [].
  Qed.

  Lemma source_ok_mono t f f' (P P' : Prop) x :
    source_ok t f P x -> (f = true -> f' = true) -> (P -> P') -> source_ok t f' P' x.
  Proof.
    unfold source_ok. intros [L H] Hf HP. split; [exact L|].
    destruct (src_place x); auto. destruct H as [H|[(e & H1 & H2 & H3)|(H1 & H2)]]; eauto 8.
  Qed.

  (** Changing one source without touching the output. *)
  Lemma inv_set s w w' i x x' :
    inv s w -> nth_error (sources s) i = Some x ->
    source_ok (taken_from (Some i) (out s)) (flag s) (stuck s) x' ->
    (src_closed x <> None -> src_content x' = src_content x) ->
    (src_place x = Gone -> src_place x' = Gone) ->
    w_streams w' = map src_content (update (sources s) i x') ->
    w_in_use w' = w_in_use w -> w_items w' = w_items w -> w_errors w' = w_errors w ->
    inv (set_source s i x') w'.
  Proof.
    intros V N Ok C G E1 E2 E3 E4.
    assert (Ev : forall e, evidence s w e -> evidence (set_source s i x') w' e).
    { intros e [H|(j & y & Hj & Hc & Ht & Hp)]; [left; now rewrite E4|].
      right. exists j. cbn. destruct (Nat.eq_dec i j) as [<-|Nij].
      - rewrite N in Hj. injection Hj as <-. exists x'.
        rewrite (nth_update_same _ _ _ _ _ N).
        assert (X : src_content x' = src_content x) by (apply C; congruence).
        unfold src_content in X. injection X as X1 X2. repeat split; auto; congruence.
      - exists y. rewrite nth_update_other by exact Nij. auto. }
    constructor; cbn.
    - exact E1.
    - rewrite E2. apply (v_in_use _ _ V).
    - intros j y Hj. destruct (Nat.eq_dec i j) as [<-|Nij].
      + rewrite (nth_update_same _ _ _ _ _ N) in Hj. injection Hj as <-. exact Ok.
      + rewrite nth_update_other in Hj by exact Nij. exact (v_sources _ _ V j y Hj).
    - intros j v H. rewrite update_length. eapply (v_tags _ _ V); eauto.
    - rewrite E4. apply (v_open _ _ V).
    - intros st H. destruct (v_closer _ _ V st H) as (A & B & e & D & E). eauto 8.
    - intros e H. apply Ev, (v_error _ _ V), H.
    - intros H. rewrite E3, E4. destruct (v_ok _ _ V H) as (A & B & D & E).
      repeat split; auto. all: destruct (Nat.eq_dec i i0) as [<-|Nij];
        [rewrite (nth_update_same _ _ _ _ _ N) in H0; injection H0 as <-;
         destruct (E i x N) as (K1 & K2 & K3);
         assert (X : src_content x' = src_content x) by (apply C; congruence);
         unfold src_content in X; injection X as X1 X2; try congruence; auto
        |rewrite nth_update_other in H0 by exact Nij; destruct (E _ _ H0) as (K1 & K2 & K3); auto].
    - apply (v_flag _ _ V).
    - rewrite E3. apply (v_items _ _ V).
    - rewrite E3. apply (v_all_items _ _ V).
    - apply (v_ended _ _ V).
  Qed.

  Lemma same_content (l : list source) i x x' :
    nth_error l i = Some x -> src_content x' = src_content x ->
    map src_content (update l i x') = map src_content l.
  Proof.
    revert i; induction l as [|z l IH]; intros [|i] H E; cbn in *; try discriminate.
    - injection H as ->. now rewrite E.
    - now rewrite (IH _ H E).
  Qed.

  Lemma inv_move s w i x x' :
    inv s w -> nth_error (sources s) i = Some x ->
    source_ok (taken_from (Some i) (out s)) (flag s) (stuck s) x' ->
    src_content x' = src_content x -> (src_place x = Gone -> src_place x' = Gone) ->
    inv (set_source s i x') w.
  Proof.
    intros V N Ok C G. apply inv_set with (w := w) (x := x); auto.
    rewrite (same_content _ _ _ _ N C). apply (v_streams _ _ V).
  Qed.

  (** Setting the flag. *)
  Lemma evidence_fields s s' w e :
    sources s' = sources s -> out s' = out s -> evidence s w e -> evidence s' w e.
  Proof. unfold evidence. now intros -> ->. Qed.

  Lemma inv_try_close s w e :
    inv s w -> evidence s w e ->
    inv (try_close s (Err e)) w.
  Proof.
    intros V Ev. unfold try_close. destruct (flag s) eqn:F; [exact V|].
    destruct (v_open _ _ V F) as (C & O & W).
    constructor; cbn; try apply V.
    - intros i x H. eapply source_ok_mono; [exact (v_sources _ _ V i x H)|auto|auto].
    - discriminate.
    - intros st H. injection H as <-. repeat split; auto. exists e. split; [reflexivity|].
      eapply evidence_fields; [| |exact Ev]; reflexivity.
    - left. discriminate.
    - intros H. now destruct (v_ended _ _ V H).
  Qed.

  Lemma firstn_more (A : Type) (l m : list A) q :
    firstn q l = firstn (Nat.min q (length l)) (l ++ m).
  Proof.
    rewrite firstn_app. replace (Nat.min q (length l) - length l) with 0 by lia.
    cbn. rewrite app_nil_r. destruct (Nat.le_ge_cases q (length l)).
    - now rewrite Nat.min_l.
    - rewrite Nat.min_r by assumption. rewrite firstn_all. now apply firstn_all2.
  Qed.
  Lemma firstn_more_le (A : Type) (l m : list A) q :
    q <= length l -> firstn q (l ++ m) = firstn q l.
  Proof. intros H. rewrite (firstn_more _ l m q). now rewrite Nat.min_l. Qed.

  Lemma ok_grow t f P x v :
    source_ok t f P x -> src_closed x = None -> source_ok t f P (grow x v).
  Proof.
    unfold source_ok. intros [L H] C. cbn. rewrite app_length. split; [lia|].
    destruct (src_place x) as [|u|e| | |]; cbn.
    - now rewrite firstn_more_le.
    - destruct H as (q & Q & Hn & Ht). exists q. split; [exact Q|].
      rewrite nth_error_app1 by lia. split; [exact Hn|]. rewrite firstn_more_le by lia. exact Ht.
    - destruct H. congruence.
    - now rewrite firstn_more_le.
    - destruct H as (_ & Hp & Ht). rewrite firstn_more_le by lia. rewrite Hp, firstn_all. exact Ht.
    - destruct H as [[H _]|[(e & H & _)|(H1 & q & H2)]]; try congruence.
      right; right. split; [exact H1|]. rewrite H2. eexists. apply firstn_more.
  Qed.

  Lemma ok_shut t f P x st :
    source_ok t f P x -> src_closed x = None -> source_ok t f P (shut x st).
  Proof.
    unfold source_ok. intros [L H] C. cbn. split; [exact L|].
    destruct (src_place x) as [|u|e| | |]; cbn; auto.
    - destruct H. congruence.
    - destruct H as (_ & Hp & Ht). rewrite Hp, firstn_all. exact Ht.
    - destruct H as [[H _]|[(e & H & _)|H]]; try congruence. auto.
  Qed.

  Lemma change_sources (l : list source) i y y' f :
    nth_error l i = Some y -> src_content y' = f (src_content y) ->
    map src_content (update l i y') = change (map src_content l) i f.
  Proof.
    revert i; induction l as [|z l IH]; intros [|i] H E; cbn in *; try discriminate.
    - injection H as ->. now rewrite E.
    - now rewrite (IH _ H E).
  Qed.
  Lemma change_sources_same (l : list source) i y f :
    nth_error l i = Some y -> f (src_content y) = src_content y ->
    change (map src_content l) i f = map src_content l.
  Proof.
    revert i; induction l as [|z l IH]; intros [|i] H E; cbn in *; try discriminate.
    - injection H as ->. now rewrite E.
    - now rewrite (IH _ H E).
  Qed.

  Lemma inv_env s w i f (g : source -> source) :
    inv s w ->
    (forall x, src_closed x <> None -> f (src_content x) = src_content x) ->
    (forall x, src_closed x = None -> src_content (g x) = f (src_content x)) ->
    (forall t b P x, source_ok t b P x -> src_closed x = None -> source_ok t b P (g x)) ->
    (forall x, src_place x = Gone -> src_place (g x) = Gone) ->
    inv (fst (match nth_error (sources s) i with
              | Some x => match src_closed x with
                          | Some _ => (s, Impossible)
                          | None => (set_source s i (g x), Done)
                          end
              | None => (s, Impossible)
              end))
        (World (change (w_streams w) i f) (w_items w) (w_errors w) (w_in_use w)).
  Proof.
    intros V F1 F2 F3 F4. destruct (nth_error (sources s) i) as [x|] eqn:N.
    - destruct (src_closed x) eqn:C; cbn [fst].
      + replace (change (w_streams w) i f) with (w_streams w); [now destruct w|].
        rewrite (v_streams _ _ V). symmetry. apply change_sources_same with (y := x); auto.
        apply F1. congruence.
      + apply inv_set with (w := w) (x := x); cbn; auto.
        * apply F3; [|exact C]. apply (v_sources _ _ V); auto.
        * intros H. congruence.
        * rewrite (v_streams _ _ V). symmetry. apply change_sources with (y := x); auto.
    - cbn [fst]. rewrite (v_streams _ _ V), change_none.
      + rewrite <- (v_streams _ _ V). now destruct w.
      + apply nth_error_None. rewrite map_length. now apply nth_error_None.
  Qed.

  Lemma inv_add s w l st :
    inv s w -> in_use s = true ->
    inv (Inter (sources s ++ [Source l st 0 AtRead]) (out s) (flag s) (closer s) (out_closed s)
             (expired s) (in_use s) (ended s))
        (World (w_streams w ++ [(l, st)]) (w_items w) (w_errors w) (w_in_use w)).
  Proof.
    intros V U.
    assert (Old : forall i x, nth_error (sources s) i = Some x ->
                  nth_error (sources s ++ [Source l st 0 AtRead]) i = Some x).
    { intros i x H. rewrite nth_error_app1; [exact H|]. apply nth_error_Some. congruence. }
    assert (Ev : forall e s', sources s' = sources s ++ [Source l st 0 AtRead] -> out s' = out s ->
                 evidence s w e ->
                 evidence s' (World (w_streams w ++ [(l, st)]) (w_items w) (w_errors w) (w_in_use w)) e).
    { intros e s' E1 E2 [H|(i & x & H & R)]; [now left|]. right. exists i, x.
      rewrite E1, E2. auto. }
    constructor; cbn.
    - now rewrite map_app, (v_streams _ _ V).
    - apply V.
    - intros i x H. destruct (Nat.lt_ge_cases i (length (sources s))) as [L|L].
      + rewrite nth_error_app1 in H by exact L. exact (v_sources _ _ V i x H).
      + rewrite nth_error_app2 in H by exact L.
        destruct (i - length (sources s)) as [|n] eqn:E; cbn in H; [|destruct n; discriminate].
        injection H as <-. split; cbn; [lia|]. apply taken_none. intros v H.
        apply (v_tags _ _ V) in H. lia.
    - intros i v H. rewrite app_length. cbn. apply (v_tags _ _ V) in H. lia.
    - apply V.
    - intros st' H. destruct (v_closer _ _ V st' H) as (A & B & e & D & E). eauto 8.
    - intros e H. apply Ev; auto. apply (v_error _ _ V), H.
    - intros H. destruct (v_ok _ _ V H) as [A _]. congruence.
    - apply V.
    - apply V.
    - apply V.
    - apply V.
  Qed.

  Lemma inv_add_item s w v :
    inv s w -> in_use s = true ->
    inv (fst (try_write s None v))
        (World (w_streams w) (w_items w ++ [v]) (w_errors w) (w_in_use w)).
  Proof.
    intros V U.
    assert (Items : prefix (taken_from None (out s)) (w_items w ++ [v])).
    { destruct (v_items _ _ V) as [r Hr]. exists (r ++ [v]). rewrite Hr. now rewrite app_assoc. }
    assert (Ev : forall e s', sources s' = sources s ->
                 (forall i, taken_from (Some i) (out s') = taken_from (Some i) (out s)) ->
                 evidence s w e ->
                 evidence s' (World (w_streams w) (w_items w ++ [v]) (w_errors w) (w_in_use w)) e).
    { intros e s' E1 E2 [H|(i & x & H & R)]; [now left|]. right. exists i, x.
      rewrite E1, E2. auto. }
    assert (Keep : out_closed s <> None \/ expired s = true ->
                   inv s (World (w_streams w) (w_items w ++ [v]) (w_errors w) (w_in_use w))).
    { intros St. constructor; cbn; try apply V; auto.
      - intros H. destruct (v_ok _ _ V H) as [A _]. congruence.
      - intros H1 H2. destruct St; congruence. }
    unfold try_write. destruct (expired s) eqn:X; [apply Keep; auto|].
    destruct (out_closed s) as [st|] eqn:O; [apply Keep; left; congruence|]. cbn [fst].
    assert (T : forall i, taken_from (Some i) (out s ++ [(None, v)]) = taken_from (Some i) (out s)).
    { intros i. rewrite taken_app, taken_one_other by discriminate. apply app_nil_r. }
    constructor; cbn.
    - apply V.
    - apply V.
    - intros i x H. rewrite T. eapply source_ok_mono; [exact (v_sources _ _ V i x H)|auto|].
      unfold stuck. cbn. rewrite O, X. auto.
    - intros i u H. apply in_app_or in H. destruct H as [H|[H|[]]]; [|discriminate].
      apply (v_tags _ _ V i u H).
    - intros F. destruct (v_open _ _ V F) as (A & _ & B). auto.
    - intros st H. destruct (v_closer _ _ V st H) as (A & B & e & D & E).
      split; [exact A|]. split; [reflexivity|]. exists e. split; [exact D|].
      apply Ev; auto.
    - discriminate.
    - discriminate.
    - intros F. destruct (v_flag _ _ V F) as [H|[H|H]]; [auto| |]; congruence.
    - rewrite taken_app, taken_one_same. destruct (v_items _ _ V) as [r Hr].
      exists []. rewrite (v_all_items _ _ V O X). now rewrite app_nil_r.
    - intros _ _. rewrite taken_app, taken_one_same. now rewrite (v_all_items _ _ V O X).
    - apply V.
  Qed.

  Lemma inv_add_error s w e :
    inv s w -> in_use s = true ->
    inv (try_close s (Err e))
        (World (w_streams w) (w_items w) (w_errors w ++ [e]) (w_in_use w)).
  Proof.
    intros V U.
    set (w' := World (w_streams w) (w_items w) (w_errors w ++ [e]) (w_in_use w)).
    assert (Ev : forall e' s', sources s' = sources s -> out s' = out s ->
                 evidence s w e' -> evidence s' w' e').
    { intros e' s' E1 E2 [H|H]; [left; cbn; apply in_or_app; now left|]. right.
      now rewrite E1, E2. }
    unfold try_close. destruct (flag s) eqn:F.
    - constructor; try apply V.
      + congruence.
      + intros st H. destruct (v_closer _ _ V st H) as (A & B & e' & D & E). eauto 8.
      + intros e' H. apply Ev; auto. apply (v_error _ _ V), H.
      + intros H. destruct (v_ok _ _ V H) as [A _]. congruence.
    - destruct (v_open _ _ V F) as (C & O & W).
      constructor; cbn; try apply V; auto.
      + intros i x H. eapply source_ok_mono; [exact (v_sources _ _ V i x H)|auto|auto].
      + discriminate.
      + intros st H. injection H as <-. repeat split; auto. exists e. split; [reflexivity|].
        left. cbn. apply in_or_app. right. now left.
      + rewrite O. discriminate.
      + rewrite O. discriminate.
      + left. discriminate.
      + intros H. now destruct (v_ended _ _ V H).
  Qed.

  Lemma read_item x v :
    read_source x = Item v -> nth_error (src_log x) (src_position x) = Some v.
  Proof.
    unfold read_source. destruct (nth_error _ _); [congruence|]. destruct (src_closed x); discriminate.
  Qed.
  Lemma read_closed x st :
    read_source x = Closed st ->
    length (src_log x) <= src_position x /\ src_closed x = Some st.
  Proof.
    unfold read_source. destruct (nth_error _ _) eqn:E; [discriminate|].
    apply nth_error_None in E. destruct (src_closed x); [|discriminate].
    intros H; split; [exact E|congruence].
  Qed.
  Lemma read_empty x :
    read_source x = Empty -> length (src_log x) <= src_position x /\ src_closed x = None.
  Proof.
    unfold read_source. destruct (nth_error _ _) eqn:E; [discriminate|].
    apply nth_error_None in E. destruct (src_closed x); [discriminate|auto].
  Qed.

  Lemma inv_write s w i x v :
    inv s w -> nth_error (sources s) i = Some x -> src_place x = AtWrite v ->
    out_closed s = None -> expired s = false ->
    inv (set_source (fst (try_write s (Some i) v)) i (put x AtRead)) w.
  Proof.
    intros V N P O X. unfold try_write. rewrite X, O. cbn [fst].
    assert (T : forall a, a <> Some i ->
                taken_from a (out s ++ [(Some i, v)]) = taken_from a (out s)).
    { intros a H. rewrite taken_app, taken_one_other by exact H. apply app_nil_r. }
    pose proof (v_sources _ _ V i x N) as [L Ok]. rewrite P in Ok.
    destruct Ok as (q & Q & Hn & Ht).
    assert (Ev : forall e s', sources s' = update (sources s) i (put x AtRead) ->
                 out s' = out s ++ [(Some i, v)] -> evidence s w e -> evidence s' w e).
    { intros e s' E1 E2 [H|(j & y & H & Hc & Hy & Hp)]; [now left|]. right.
      exists j, y. rewrite E1, E2. assert (i <> j) by (intros <-; congruence).
      rewrite nth_update_other by assumption. rewrite T by congruence. auto. }
    constructor; cbn.
    - rewrite (same_content _ _ _ _ N); [apply V|reflexivity].
    - apply V.
    - intros j y H. destruct (Nat.eq_dec i j) as [<-|Nij].
      + rewrite (nth_update_same _ _ _ _ _ N) in H. injection H as <-. split; cbn; [exact L|].
        rewrite taken_app, taken_one_same, Ht, Q. symmetry. now apply firstn_snoc.
      + rewrite nth_update_other in H by exact Nij. rewrite T by congruence.
        eapply source_ok_mono; [exact (v_sources _ _ V j y H)|auto|].
        unfold stuck. cbn. now rewrite O, X.
    - intros j u H. rewrite update_length. apply in_app_or in H.
      destruct H as [H|[H|[]]]; [apply (v_tags _ _ V j u H)|].
      injection H as <- <-. apply nth_error_Some. congruence.
    - intros F. destruct (v_open _ _ V F) as (A & _ & B). auto.
    - intros st H. destruct (v_closer _ _ V st H) as (A & B & e & D & E).
      split; [exact A|]. split; [reflexivity|]. exists e. split; [exact D|]. apply Ev; auto.
    - discriminate.
    - discriminate.
    - intros F. destruct (v_flag _ _ V F) as [H|[H|H]]; [auto| |]; congruence.
    - rewrite T by discriminate. apply V.
    - intros _ _. rewrite T by discriminate. now apply (v_all_items _ _ V).
    - apply V.
  Qed.

  Lemma inv_source s w i x :
    inv s w -> nth_error (sources s) i = Some x -> inv (fst (source_step s i x)) w.
  Proof.
    intros V N. pose proof (v_sources _ _ V i x N) as [L Ok]. unfold source_step.
    destruct (src_place x) as [|v|e| | |] eqn:P.
    - destruct (read_source x) as [|v|[|e]] eqn:R; cbn [fst];
        (apply inv_move with (x := x); [exact V|exact N| |reflexivity|congruence]);
        split; cbn; auto.
      + apply read_item in R.
        assert (src_position x < length (src_log x)) by (apply nth_error_Some; congruence). lia.
      + apply read_item in R. eauto.
      + apply read_closed in R. destruct R as [R1 R2]. left. split; [exact R2|].
        rewrite Ok. now apply firstn_all2.
      + apply read_closed in R. destruct R as [R1 R2]. split; [exact R2|].
        rewrite Ok. now apply firstn_all2.
    - destruct (try_write s (Some i) v) as [s' b] eqn:T.
      assert (D : (b = true /\ out_closed s = None /\ expired s = false) \/
                  (b = false /\ s' = s /\ stuck s)).
      { unfold try_write in T. unfold stuck. destruct (expired s); [injection T as <- <-; auto|].
        destruct (out_closed s); injection T as <- <-; [|auto].
        right. repeat split; auto. left. discriminate. }
      destruct D as [(-> & O & X)|(-> & -> & St)]; cbn [fst].
      + replace s' with (fst (try_write s (Some i) v)) by now rewrite T.
        now apply inv_write.
      + apply inv_move with (x := x); [exact V|exact N| |reflexivity|congruence].
        split; cbn; auto. right; right. split; [exact St|].
        destruct Ok as (q & _ & _ & Hq). eauto.
    - cbn [fst]. destruct Ok as [C T].
      assert (A : inv (set_source s i (put x Gone)) w \/ flag s = false).
      { destruct (flag s) eqn:F; [left|now right].
        apply inv_move with (x := x); [exact V|exact N| |reflexivity|reflexivity].
        split; cbn; auto. right; left. exists e. auto. }
      unfold try_close. destruct (flag s) eqn:F; [destruct A as [A|A]; [exact A|discriminate]|].
      clear A. destruct (v_open _ _ V F) as (C0 & O & W).
      constructor; cbn.
      + rewrite (same_content _ _ _ _ N); [apply V|reflexivity].
      + apply V.
      + intros j y H. destruct (Nat.eq_dec i j) as [<-|Nij].
        * rewrite (nth_update_same _ _ _ _ _ N) in H. injection H as <-. split; cbn; [exact L|].
          right; left. exists e. auto.
        * rewrite nth_update_other in H by exact Nij.
          eapply source_ok_mono; [exact (v_sources _ _ V j y H)|auto|auto].
      + intros j u H. rewrite update_length. apply (v_tags _ _ V j u H).
      + discriminate.
      + intros st H. injection H as <-. repeat split; auto. exists e. split; [reflexivity|].
        right. exists i, (put x Gone). cbn. rewrite (nth_update_same _ _ _ _ _ N). auto.
      + rewrite O. discriminate.
      + rewrite O. discriminate.
      + left. discriminate.
      + apply V.
      + apply V.
      + intros H. now destruct (v_ended _ _ V H).
    - destruct (read_source x) as [|v|st] eqn:R; cbn [fst];
        (apply inv_move with (x := x); [exact V|exact N| |reflexivity|congruence]);
        split; cbn; auto.
      apply read_empty in R. destruct R as [R1 R2].
      assert (E : src_position x = length (src_log x)) by lia.
      repeat split; auto. rewrite Ok, E. apply firstn_all.
    - exact V.
    - exact V.
  Qed.

  Lemma inv_close s w st : inv s w -> closer s = Some st -> inv (close_out s st) w.
  Proof.
    intros V C. destruct (v_closer _ _ V st C) as (F & O & e & -> & Ev).
    assert (Ev' : evidence (close_out s (Err e)) w e) by (apply (evidence_fields s); auto).
    constructor; cbn; try apply V.
    - intros i x H. eapply source_ok_mono; [exact (v_sources _ _ V i x H)|auto|].
      unfold stuck. cbn. destruct (expired s); [auto|]. left. discriminate.
    - congruence.
    - discriminate.
    - intros e' H. destruct (expired s); [congruence|]. now replace e' with e by congruence.
    - destruct (expired s); [congruence|discriminate].
    - intros _. destruct (expired s); [auto|]. right; left. discriminate.
    - destruct (expired s); [congruence|discriminate].
  Qed.

  Lemma inv_expire s w :
    inv s w ->
    inv (Inter (sources s) (out s) (flag s) (closer s) (out_closed s) true (in_use s) (ended s)) w.
  Proof.
    intros V. constructor; cbn; try apply V; auto.
    - intros i x H. eapply source_ok_mono; [exact (v_sources _ _ V i x H)|auto|].
      unfold stuck. cbn. auto.
    - discriminate.
  Qed.

  Lemma inv_drop s w :
    inv s w ->
    inv (Inter (sources s) (out s) (flag s) (closer s) (out_closed s) (expired s) false (ended s))
        (World (w_streams w) (w_items w) (w_errors w) false).
  Proof.
    intros V. constructor; cbn; try apply V; auto.
    - intros H. destruct (v_ok _ _ V H) as [_ A]. auto.
    - intros H. now destruct (v_ended _ _ V H).
  Qed.

  Lemma all_gone s :
    forallb is_gone (sources s) = true ->
    forall i x, nth_error (sources s) i = Some x -> src_place x = Gone.
  Proof.
    intros H i x N. rewrite forallb_forall in H. apply nth_error_In in N. apply H in N.
    unfold is_gone in N. now destruct (src_place x).
  Qed.

  Lemma inv_end s w : inv s w -> inv (fst (istep s IEnd)) w.
  Proof.
    intros V. cbn [istep]. destruct (in_use s) eqn:U; [exact V|].
    destruct (ended s) eqn:E; [exact V|]. cbn [orb].
    destruct (forallb is_gone (sources s)) eqn:G; [|exact V]. cbn [negb].
    destruct (closer s) eqn:C; [exact V|]. cbn [fst].
    destruct (flag s) eqn:F.
    - constructor; try apply V; auto.
    - destruct (v_open _ _ V F) as (_ & O & W). unfold try_close. rewrite F.
      unfold close_out. cbn.
      constructor; cbn; try apply V; auto.
      + intros i x H. eapply source_ok_mono; [exact (v_sources _ _ V i x H)|auto|].
        unfold stuck. cbn. rewrite O. destruct (expired s); [auto|]. intros [K|K]; congruence.
      + discriminate.
      + discriminate.
      + intros e H. destruct (expired s); congruence.
      + intros H. destruct (expired s) eqn:X; [congruence|]. split; [exact U|].
        split; [now apply (v_all_items _ _ V)|]. split; [exact W|]. intros i x N.
        pose proof (all_gone s G i x N) as Px.
        destruct (v_sources _ _ V i x N) as [_ K]. rewrite Px in K.
        destruct K as [[K1 K2]|[(e & _ & _ & K)|[[K|K] _]]]; [auto| | |]; congruence.
      + intros _. destruct (expired s); [auto|]. right; left. discriminate.
      + intros H X. rewrite X in H. discriminate.
  Qed.

  Lemma step_inv s w o : inv s w -> inv (fst (istep s o)) (ihappens w o).
  Proof.
    intros V. destruct o as [l st|v|e|i v|i st|i| | | |].
    - cbn [istep ihappens]. rewrite (v_in_use _ _ V). destruct (in_use s) eqn:U; [|exact V].
      cbn [fst]. pose proof (inv_add s w l st V U) as H.
      rewrite (v_in_use _ _ V), U in H. exact H.
    - cbn [istep ihappens]. rewrite (v_in_use _ _ V). destruct (in_use s) eqn:U; [|exact V].
      cbn [fst]. pose proof (inv_add_item s w v V U) as H.
      rewrite (v_in_use _ _ V), U in H. exact H.
    - cbn [istep ihappens]. rewrite (v_in_use _ _ V). destruct (in_use s) eqn:U; [|exact V].
      cbn [fst]. pose proof (inv_add_error s w e V U) as H.
      rewrite (v_in_use _ _ V), U in H. exact H.
    - cbn [istep ihappens]. apply inv_env; auto.
      + intros x H. unfold write_to, src_content. cbn. destruct (src_closed x); congruence.
      + intros x H. unfold write_to, src_content. cbn. now rewrite H.
      + intros t b P x. apply ok_grow.
      + intros x H. cbn. now rewrite H.
    - cbn [istep ihappens]. apply (inv_env s w i _ (fun x => shut x st)); auto.
      + intros x H. unfold close_with, src_content. cbn. destruct (src_closed x); congruence.
      + intros x H. unfold close_with, src_content. cbn. now rewrite H.
      + intros t b P x. apply ok_shut.
      + intros x H. cbn. now rewrite H.
    - cbn [istep ihappens]. destruct (nth_error (sources s) i) as [x|] eqn:N; [|exact V].
      now apply inv_source.
    - cbn [istep ihappens]. destruct (closer s) as [st|] eqn:C; [|exact V]. now apply inv_close.
    - cbn [istep ihappens]. now apply inv_expire.
    - cbn [istep ihappens]. destruct (in_use s) eqn:U; [now apply inv_drop|].
      cbn [fst]. replace (World _ _ _ false) with w; [exact V|].
      rewrite <- U, <- (v_in_use _ _ V). now destruct w.
    - cbn [ihappens]. now apply inv_end.
  Qed.

  Lemma run_inv ops : forall s w, inv s w -> inv (irun s ops) (fold_left ihappens ops w).
  Proof.
    induction ops as [|o ops IH]; intros s w V; cbn; [exact V|]. apply IH. now apply step_inv.
  Qed.
  Lemma reachable ops : inv (irun make_inter ops) (ihappened ops).
  Proof. apply run_inv, inv_make. Qed.

  (** * What is delivered *)
  Lemma nth_content s w i vs st :
    inv s w -> nth_error (w_streams w) i = Some (vs, st) ->
    exists x, nth_error (sources s) i = Some x /\ src_log x = vs /\ src_closed x = st.
  Proof.
    intros V H. rewrite (v_streams _ _ V) in H. rewrite nth_error_map in H.
    destruct (nth_error (sources s) i) as [x|]; [|discriminate]. exists x. cbn in H.
    unfold src_content in H. injection H as H1 H2. auto.
  Qed.

  Lemma content_nth s w i x :
    inv s w -> nth_error (sources s) i = Some x ->
    nth_error (w_streams w) i = Some (src_log x, src_closed x).
  Proof.
    intros V H. rewrite (v_streams _ _ V), nth_error_map, H. reflexivity.
  Qed.

  Lemma prefix_firstn (l : list value) q : prefix (firstn q l) l.
  Proof. exists (skipn q l). symmetry. apply firstn_skipn. Qed.
  Lemma prefix_refl (l : list value) : prefix l l.
  Proof. exists []. now rewrite app_nil_r. Qed.

  Lemma source_prefix t f P x : source_ok t f P x -> prefix t (src_log x).
  Proof.
    unfold source_ok. intros [_ H]. destruct (src_place x) as [|v|e| | |].
    - rewrite H. apply prefix_firstn.
    - destruct H as (q & _ & _ & ->). apply prefix_firstn.
    - destruct H as [_ ->]. apply prefix_refl.
    - rewrite H. apply prefix_firstn.
    - destruct H as (_ & _ & ->). apply prefix_refl.
    - destruct H as [[_ ->]|[(e & _ & -> & _)|(_ & q & ->)]];
        [apply prefix_refl|apply prefix_refl|apply prefix_firstn].
  Qed.

  Lemma items_from_sources s w :
    inv s w ->
    (forall i vs st, nth_error (w_streams w) i = Some (vs, st) ->
       prefix (taken_from (Some i) (out s)) vs) /\
    prefix (taken_from None (out s)) (w_items w) /\
    (forall i v, In (Some i, v) (out s) -> i < length (w_streams w)).
  Proof.
    intros V. split; [|split].
    - intros i vs st H. destruct (nth_content _ _ _ _ _ V H) as (x & N & <- & _).
      eapply source_prefix. apply (v_sources _ _ V i x N).
    - apply V.
    - intros i v H. rewrite (v_streams _ _ V), map_length. apply (v_tags _ _ V i v H).
  Qed.

  Lemma success_is_complete s w :
    inv s w -> out_closed s = Some OK ->
    w_in_use w = false /\ w_errors w = [] /\ taken_from None (out s) = w_items w /\
    forall i vs st, nth_error (w_streams w) i = Some (vs, st) ->
      st = Some OK /\ taken_from (Some i) (out s) = vs.
  Proof.
    intros V H. destruct (v_ok _ _ V H) as (A & B & C & D).
    rewrite (v_in_use _ _ V). repeat split; auto.
    all: destruct (nth_content _ _ _ _ _ V H0) as (x & N & <- & <-);
      destruct (D i x N) as (D1 & D2 & D3); auto.
  Qed.

  Lemma error_is_real s w e :
    inv s w -> out_closed s = Some (Err e) ->
    In e (w_errors w) \/
    exists i vs, nth_error (w_streams w) i = Some (vs, Some (Err e)) /\
                 taken_from (Some i) (out s) = vs.
  Proof.
    intros V H. destruct (v_error _ _ V e H) as [K|(i & x & N & C & T & _)]; [now left|].
    right. exists i, (src_log x). rewrite (content_nth _ _ _ _ V N), C. auto.
  Qed.

  (** * When nothing can go on *)
  Lemma quiet_sources s :
    quiet s -> closer s = None /\
    forall i x, nth_error (sources s) i = Some x -> src_place x = Waiting \/ src_place x = Gone.
  Proof.
    intros [Q1 Q2]. split.
    - cbn in Q1. destruct (closer s); [discriminate|reflexivity].
    - intros i x N. specialize (Q2 i). cbn in Q2. rewrite N in Q2. unfold source_step in Q2.
      destruct (src_place x) as [|v|e| | |]; auto.
      + destruct (read_source x) as [|v|[|e]]; discriminate.
      + destruct (try_write s (Some i) v); discriminate.
      + discriminate.
      + destruct (read_source x); discriminate.
  Qed.

  Lemma settled s w :
    inv s w -> quiet s -> expired s = false -> out_closed s = None ->
    w_errors w = [] /\ taken_from None (out s) = w_items w /\
    (forall i vs st, nth_error (w_streams w) i = Some (vs, st) ->
       taken_from (Some i) (out s) = vs /\ (st = None \/ st = Some OK)) /\
    (w_in_use w = false -> all_succeeded (w_streams w) ->
       snd (istep s IEnd) = Done /\ out_closed (fst (istep s IEnd)) = Some OK /\
       out (fst (istep s IEnd)) = out s).
  Proof.
    intros V Q X O. destruct (quiet_sources s Q) as [C P].
    assert (F : flag s = false).
    { destruct (flag s) eqn:F; [|reflexivity].
      destruct (v_flag _ _ V F) as [H|[H|H]]; congruence. }
    destruct (v_open _ _ V F) as (_ & _ & W).
    assert (K : forall i x, nth_error (sources s) i = Some x ->
              taken_from (Some i) (out s) = src_log x /\
              (src_closed x = None \/ src_closed x = Some OK /\ src_place x = Gone)).
    { intros i x N. destruct (v_sources _ _ V i x N) as [L H].
      destruct (P i x N) as [E|E]; rewrite E in H.
      - tauto.
      - destruct H as [[H1 H2]|[(e & _ & _ & H)|[[H|H] _]]]; [auto| | |]; congruence. }
    split; [exact W|]. split; [now apply (v_all_items _ _ V)|]. split.
    - intros i vs st H. destruct (nth_content _ _ _ _ _ V H) as (x & N & <- & <-).
      destruct (K i x N) as [K1 K2]. tauto.
    - intros U A. cbn [istep]. rewrite <- (v_in_use _ _ V), U. cbn [orb].
      destruct (ended s) eqn:E; [destruct (v_ended _ _ V E); congruence|]. cbn [orb].
      assert (G : forallb is_gone (sources s) = true).
      { apply forallb_forall. intros x Hx. apply In_nth_error in Hx. destruct Hx as [i N].
        unfold is_gone. destruct (K i x N) as [_ [K2|[_ ->]]]; [|reflexivity].
        pose proof (content_nth _ _ _ _ V N) as H. apply nth_error_In in H.
        unfold all_succeeded in A. rewrite Forall_forall in A. apply A in H. cbn in H.
        congruence. }
      rewrite G, C, F. cbn. unfold close_out, try_close. rewrite F. cbn. now rewrite X.
  Qed.

  (** * Threads end *)
  Definition place_weight x : nat :=
    match src_place x with
    | AtRead => 3
    | AtWrite _ => 4
    | AtClose _ => 2
    | AtSubscribe => match read_source x with Empty => 1 | _ => 4 end
    | Waiting | Gone => 0
    end.
  Definition source_work x : nat := 2 * (length (src_log x) - src_position x) + place_weight x.
  Definition iwork s : nat :=
    list_sum (map source_work (sources s)) + match closer s with Some _ => 1 | None => 0 end.

  Lemma sum_update (l : list source) i x x' :
    nth_error l i = Some x ->
    list_sum (map source_work (update l i x')) + source_work x
    = list_sum (map source_work l) + source_work x'.
  Proof.
    revert i; induction l as [|z l IH]; intros [|i] H; cbn [nth_error update map] in *;
      try discriminate; rewrite !sum_cons.
    - injection H as ->. lia.
    - specialize (IH i H). lia.
  Qed.

  Inductive internal : iop value error -> Prop :=
  | Int_step i : internal (IStep i)
  | Int_close : internal IClose.

  Lemma internal_work s o :
    internal o -> snd (istep s o) = Done -> iwork (fst (istep s o)) < iwork s.
  Proof.
    intros [i|] D; cbn [istep] in *.
    - destruct (nth_error (sources s) i) as [x|] eqn:N; [|discriminate].
      assert (S : forall x' s', sources s' = update (sources s) i x' -> closer s' = closer s ->
                  source_work x' < source_work x -> iwork s' < iwork s).
      { intros x' s' E1 E2 H. unfold iwork. rewrite E1, E2.
        pose proof (sum_update (sources s) i x x' N). lia. }
      unfold source_step in *. unfold source_work, place_weight in S.
      destruct (src_place x) as [|v|e| | |] eqn:P; try discriminate.
      + destruct (read_source x) as [|v|[|e]] eqn:R; cbn [fst];
          (eapply S; [reflexivity|reflexivity|]); cbn [put next src_place src_log src_position];
          try lia.
        * change (read_source (put x AtSubscribe)) with (read_source x). rewrite R. lia.
        * apply read_item in R.
          assert (src_position x < length (src_log x)) by (apply nth_error_Some; congruence). lia.
      + unfold try_write. destruct (expired s); [|destruct (out_closed s)]; cbn [fst];
          (eapply S; [reflexivity|reflexivity|]); cbn [put src_place src_log src_position]; lia.
      + cbn [fst]. unfold try_close. destruct (flag s).
        * eapply S; [reflexivity|reflexivity|]. cbn [put src_place src_log src_position]. lia.
        * unfold iwork. cbn [set_source sources closer].
          pose proof (sum_update (sources s) i x (put x Gone) N) as H.
          assert (W1 : source_work x = 2 * (length (src_log x) - src_position x) + 2)
            by (unfold source_work, place_weight; now rewrite P).
          assert (W2 : source_work (put x Gone) = 2 * (length (src_log x) - src_position x) + 0)
            by reflexivity.
          destruct (closer s); lia.
      + destruct (read_source x) as [|v|st] eqn:R; cbn [fst];
          (eapply S; [reflexivity|reflexivity|]); cbn [put src_place src_log src_position];
          rewrite ?R; lia.
    - destruct (closer s) eqn:C; [|discriminate]. cbn [fst]. unfold iwork. cbn [close_out sources closer]. rewrite C. lia.
  Qed.

  (** What is delivered stays. *)
  Lemma step_keeps s w o :
    inv s w ->
    (exists more, out (fst (istep s o)) = out s ++ more) /\
    (forall st, out_closed s = Some st ->
       out_closed (fst (istep s o)) = Some st /\ out (fst (istep s o)) = out s).
  Proof.
    intros V.
    assert (X : out (fst (istep s o)) = out s /\
                (forall st, out_closed s = Some st -> out_closed (fst (istep s o)) = Some st)
                \/ (exists a, out (fst (istep s o)) = out s ++ [a]) /\ out_closed s = None).
    { assert (TW : forall a v, out (fst (try_write s a v)) = out s /\
                out_closed (fst (try_write s a v)) = out_closed s
                \/ (exists a', out (fst (try_write s a v)) = out s ++ [a']) /\ out_closed s = None).
      { intros a v. unfold try_write. destruct (expired s); [auto|].
        destruct (out_closed s) eqn:O; [left; auto|]. right. cbn. eauto. }
      assert (TC : forall st, out (try_close s st) = out s /\
                              out_closed (try_close s st) = out_closed s).
      { intros st. unfold try_close. destruct (flag s); auto. }
      destruct o as [l st|v|e|i v|i st|i| | | |]; cbn [istep].
      - left. destruct (in_use s); auto.
      - destruct (in_use s); [|auto]. cbn [fst]. destruct (TW None v) as [[A B]|A]; [left|right; auto].
        split; [exact A|]. now rewrite B.
      - left. destruct (in_use s); [|auto]. cbn [fst]. destruct (TC (Err e)) as [-> ->]. auto.
      - left. destruct (nth_error (sources s) i) as [x|]; [|auto]. destruct (src_closed x); auto.
      - left. destruct (nth_error (sources s) i) as [x|]; [|auto]. destruct (src_closed x); auto.
      - destruct (nth_error (sources s) i) as [x|]; [|auto]. unfold source_step.
        destruct (src_place x) as [|v|e| | |]; auto.
        + left. destruct (read_source x) as [|v|[|e]]; auto.
        + destruct (try_write s (Some i) v) as [s' b] eqn:T. cbn [fst set_source out out_closed].
          specialize (TW (Some i) v). rewrite T in TW. cbn in TW.
          destruct TW as [[A B]|A]; [left|right; auto]. split; [exact A|]. now rewrite B.
        + left. cbn [fst set_source out out_closed]. destruct (TC (Err e)) as [-> ->]. auto.
        + left. destruct (read_source x); auto.
      - left. destruct (closer s) as [st|] eqn:C; [|auto]. cbn. split; [reflexivity|].
        intros st' H. destruct (v_closer _ _ V st C) as (_ & O & _). congruence.
      - left. auto.
      - left. destruct (in_use s); auto.
      - left. destruct (_ || _ || _); [auto|]. destruct (closer s); [auto|]. cbn [fst].
        destruct (flag s) eqn:F; [auto|]. unfold try_close. rewrite F. cbn.
        split; [reflexivity|]. intros st H. destruct (v_open _ _ V F) as (_ & O & _). congruence. }
    destruct X as [[W S]|[[a W] N]].
    - split; [exists []; now rewrite app_nil_r|]. intros st H. auto.
    - split; [eauto|]. intros st H. congruence.
  Qed.

  Lemma run_keeps ops : forall s w,
    inv s w ->
    (exists more, out (irun s ops) = out s ++ more) /\
    (forall st, out_closed s = Some st ->
       out_closed (irun s ops) = Some st /\ out (irun s ops) = out s).
  Proof.
    induction ops as [|o ops IH]; intros s w V; cbn [irun].
    - split; [exists []; now rewrite app_nil_r|auto].
    - destruct (step_keeps s w o V) as [[m1 W1] S1].
      destruct (IH _ _ (step_inv s w o V)) as [[m2 W2] S2]. split.
      + exists (m1 ++ m2). rewrite W2, W1. now rewrite app_assoc.
      + intros st H. destruct (S1 st H) as [A B]. destruct (S2 st A) as [A' B'].
        split; congruence.
  Qed.

  Lemma irun_app ops1 ops2 : forall s, irun s (ops1 ++ ops2) = irun (irun s ops1) ops2.
  Proof. induction ops1 as [|o ops1 IH]; intros s; cbn; [reflexivity|]. apply IH. Qed.
End Proofs.
