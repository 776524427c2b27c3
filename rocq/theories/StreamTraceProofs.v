(** What observers of a stream see. *)
From Coq Require Import List Bool PeanoNat Lia.
From Verif Require Import StreamModel StreamSpec StreamProofs.
Import ListNotations.
Local Open Scope nat_scope.

Section Traces.
  Context {value status : Type}.
  Variable orphaned : status.
  Implicit Types (a : astream value status) (t : list (observation value status))
    (x : observation value status).

  (** * Observers read traces event by event *)

  Ltac by_events t := induction t as [|[o [out cbs]] t IH]; [reflexivity|]; cbn [app].

  Lemma written_app t k : written (t ++ k) = written t ++ written k.
  Proof.
    by_events t. destruct o; try exact IH; destruct out as [|b|m|r| |]; try exact IH.
    - cbn. now rewrite IH.
    - destruct b; [cbn; now rewrite IH|exact IH].
  Qed.

  Lemma items_app i t k : items_read i (t ++ k) = items_read i t ++ items_read i k.
  Proof.
    by_events t. destruct o; try exact IH; destruct out as [|b|m|r| |]; try exact IH.
    destruct r; try exact IH. cbn [items_read]. destruct (_ =? i); [|exact IH].
    now rewrite IH.
  Qed.

  Lemma first_close_app t k :
    first_close orphaned (t ++ k)
    = match first_close orphaned t with
      | Some st => Some st
      | None => first_close orphaned k
      end.
  Proof. by_events t. destruct o; try exact IH; reflexivity. Qed.

  Lemma is_closed_app t k : is_closed (t ++ k) = is_closed t || is_closed k.
  Proof.
    by_events t. destruct o; try exact IH; destruct out as [|b|m|r| |]; try exact IH.
    reflexivity.
  Qed.

  Lemma subscribed_app c t k : subscribed c (t ++ k) = subscribed c t + subscribed c k.
  Proof.
    by_events t. destruct o; try exact IH; destruct out as [|b|m|r| |]; try exact IH.
    cbn [subscribed]. rewrite IH. lia.
  Qed.

  Lemma runs_app c t k : runs c (t ++ k) = runs c t + runs c k.
  Proof. by_events t. cbn [runs]. rewrite IH. lia. Qed.

  (** * The invariant *)

  Definition count (c : callback) (l : list callback) : nat :=
    length (filter (callback_eqb c) l).

  Record tells t a : Prop := Tells {
    t_log : a_expired _ _ a = false -> log a = written t;
    t_prefix : exists r, written t = log a ++ r;
    t_items : forall i, exists p, p <= length (log a) /\ items_read i t = firstn p (log a)
      /\ forall q, find_position (positions a) i = Some q -> q = p;
    t_ids : forall i q, find_position (positions a) i = Some q -> i < a_next a;
    t_fresh : forall i, a_next a <= i -> items_read i t = [];
    t_reader : forall i, (exists q, find_position (positions a) i = Some q) <-> has_reader i t;
    t_made : forall i cbs, In (MakeReader, (Made i, cbs)) t -> i < a_next a;
    t_dropped : forall i cbs, In (DropReader i, (Done, cbs)) t -> i < a_next a;
    t_handle : a_handle a = true <-> ~ In (DropHandle, (Done, [])) t;
    t_flag : a_closed a = match first_close orphaned t with Some _ => true | None => false end;
    t_closing : a_closing a
      = match first_close orphaned t with
        | Some st => if is_closed t then [] else [st]
        | None => []
        end;
    t_closed : is_closed t = true -> first_close orphaned t <> None;
    t_status : a_expired _ _ a = false ->
      a_status a = if is_closed t then first_close orphaned t else None;
    t_callbacks : forall c, subscribed c t = runs c t + count c (waiting a);
    t_waiting : forall i n, In (i, n) (waiting a) ->
      i < a_next a /\ a_status a = None
      /\ forall q, find_position (positions a) i = Some q -> q = length (log a) }.

  (** ** Events that leave no trace for most observers *)

  Lemma in_snoc_other x y t : x <> y -> (In x (t ++ [y]) <-> In x t).
  Proof.
    intros N. rewrite in_app_iff. cbn. intuition congruence.
  Qed.

  Lemma has_reader_other i t o (oc : output value status * list callback) :
    o <> MakeReader -> o <> DropReader i -> (has_reader i (t ++ [(o, oc)]) <-> has_reader i t).
  Proof.
    intros N1 N2. unfold has_reader.
    rewrite (in_snoc_other (MakeReader, _)) by congruence.
    rewrite (in_snoc_other (DropReader i, _)) by congruence. reflexivity.
  Qed.

  Lemma made_other i cbs t o (oc : output value status * list callback) :
    o <> MakeReader ->
    In (MakeReader, (Made i, cbs)) (t ++ [(o, oc)]) -> In (MakeReader, (Made i, cbs)) t.
  Proof. intros N. now rewrite in_snoc_other by congruence. Qed.

  Lemma dropped_other i cbs t o (oc : output value status * list callback) :
    o <> DropReader i ->
    In (DropReader i, (Done, cbs)) (t ++ [(o, oc)]) -> In (DropReader i, (Done, cbs)) t.
  Proof. intros N. now rewrite in_snoc_other by congruence. Qed.

  Ltac snoc :=
    rewrite ?written_app, ?items_app, ?first_close_app, ?is_closed_app,
      ?subscribed_app, ?runs_app.

  Lemma fc_none (k : list (observation value status)) :
    match first_close orphaned k with Some st => Some st | None => None end
    = first_close orphaned k.
  Proof. now destruct (first_close orphaned k). Qed.

  Ltac same T :=
    constructor; cbn [log a_status waiting a_closed a_closing a_handle a_next positions];
    [ let E := fresh in intros E; snoc; cbn [written]; rewrite ?app_nil_r;
      try exact (t_log _ _ T E)
    | snoc; cbn [written]; rewrite ?app_nil_r; try exact (t_prefix _ _ T)
    | intros i'; snoc; cbn [items_read]; rewrite ?app_nil_r; try exact (t_items _ _ T i')
    | try exact (t_ids _ _ T)
    | intros i'; snoc; cbn [items_read]; rewrite ?app_nil_r; try exact (t_fresh _ _ T i')
    | intros i'; try (rewrite has_reader_other by discriminate; exact (t_reader _ _ T i'))
    | intros i' cbs' M; try (apply made_other in M; [|discriminate]; exact (t_made _ _ T i' cbs' M))
    | intros i' cbs' M; try (apply dropped_other in M; [|discriminate]; exact (t_dropped _ _ T i' cbs' M))
    | try (rewrite in_snoc_other by discriminate; exact (t_handle _ _ T))
    | snoc; cbn [first_close]; rewrite ?fc_none; try exact (t_flag _ _ T)
    | snoc; cbn [first_close is_closed]; rewrite ?fc_none, ?orb_false_r; try exact (t_closing _ _ T)
    | snoc; cbn [first_close is_closed]; rewrite ?fc_none, ?orb_false_r; try exact (t_closed _ _ T)
    | let E := fresh in intros E; snoc; cbn [first_close is_closed]; rewrite ?fc_none, ?orb_false_r;
      try exact (t_status _ _ T E)
    | intros c'; snoc; cbn [subscribed runs count filter length]; rewrite ?Nat.add_0_r;
      try exact (t_callbacks _ _ T c')
    | intros i' n' W; try exact (t_waiting _ _ T i' n' W) ].

  (** ** Each kind of event *)

  Lemma expired_positions a : a_expired _ _ a = true -> a_handle a = false /\ positions a = [].
  Proof.
    unfold a_expired. destruct (a_handle a); [discriminate|].
    destruct (positions a); [now split|discriminate].
  Qed.

  Lemma tells_append t a v o out :
    tells t a -> a_expired _ _ a = false -> a_status a = None ->
    (o = Write v /\ out = Done) \/ (o = TryWrite v /\ out = Bool true) ->
    tells (t ++ [(o, (out, waiting a))]) (append _ _ a v).
  Proof.
    intros T X ST O.
    assert (W : written [(o, (out, waiting a))] = [v]) by now destruct O as [[-> ->]|[-> ->]].
    assert (F : first_close orphaned [(o, (out, waiting a))] = None)
      by now destruct O as [[-> ->]|[-> ->]].
    assert (C : is_closed [(o, (out, waiting a))] = false) by now destruct O as [[-> ->]|[-> ->]].
    assert (I : forall i, items_read i [(o, (out, waiting a))] = [])
      by (intros i; now destruct O as [[-> ->]|[-> ->]]).
    assert (SB : forall c, subscribed c [(o, (out, waiting a))] = 0)
      by (intros i; now destruct O as [[-> ->]|[-> ->]]).
    assert (D : o <> MakeReader /\ (forall i, o <> DropReader i) /\ o <> DropHandle)
      by (destruct O as [[-> ->]|[-> ->]]; repeat split; discriminate).
    destruct D as [D1 [D2 D3]].
    constructor; cbn [append log a_status waiting a_closed a_closing a_handle a_next positions].
    - intros _. rewrite written_app, W, (t_log _ _ T X). reflexivity.
    - exists []. rewrite written_app, W, (t_log _ _ T X), app_nil_r. reflexivity.
    - intros i. rewrite items_app, I, app_nil_r.
      destruct (t_items _ _ T i) as [p [P1 [P2 P3]]]. exists p.
      rewrite app_length. cbn. split; [lia|]. split; [|assumption].
      rewrite firstn_app. replace (p - length (log a)) with 0 by lia. cbn.
      now rewrite app_nil_r.
    - exact (t_ids _ _ T).
    - intros i L. rewrite items_app, I, app_nil_r. now apply (t_fresh _ _ T).
    - intros i. rewrite has_reader_other by auto. apply (t_reader _ _ T).
    - intros i cbs M. apply made_other in M; [|assumption]. now apply (t_made _ _ T i cbs).
    - intros i cbs M. apply dropped_other in M; [|apply D2]. now apply (t_dropped _ _ T i cbs).
    - rewrite in_snoc_other by congruence. apply (t_handle _ _ T).
    - rewrite first_close_app, F, fc_none. apply (t_flag _ _ T).
    - rewrite first_close_app, F, fc_none, is_closed_app, C, orb_false_r. apply (t_closing _ _ T).
    - rewrite first_close_app, F, fc_none, is_closed_app, C, orb_false_r. apply (t_closed _ _ T).
    - rewrite first_close_app, F, fc_none, is_closed_app, C, orb_false_r. intros _.
      apply (t_status _ _ T X).
    - intros c. rewrite subscribed_app, SB, runs_app, (t_callbacks _ _ T c). cbn. unfold count. lia.
    - easy.
  Qed.

  Lemma tells_begin_close t a st o :
    tells t a -> a_closed a = false ->
    o = Close st \/ o = TryClose st \/ (o = DestroyWriter /\ st = orphaned) ->
    tells (t ++ [(o, (Done, []))]) (begin_close _ _ a st).
  Proof.
    intros T X O.
    assert (F0 : first_close orphaned t = None).
    { pose proof (t_flag _ _ T) as F. rewrite X in F. now destruct (first_close orphaned t). }
    assert (NC : is_closed t = false).
    { destruct (is_closed t) eqn:E; [|reflexivity]. now apply (t_closed _ _ T) in E. }
    assert (CL : a_closing a = []) by (rewrite (t_closing _ _ T), F0; reflexivity).
    assert (F : first_close orphaned (t ++ [(o, (Done, []))]) = Some st).
    { rewrite first_close_app, F0. destruct O as [ -> |[ -> |[ -> -> ]]]; reflexivity. }
    assert (W : written [(o, (Done, @nil callback))] = []) by (destruct O as [ -> |[ -> |[ -> -> ]]]; reflexivity).
    assert (C : is_closed [(o, (Done, @nil callback))] = false)
      by (destruct O as [ -> |[ -> |[ -> -> ]]]; reflexivity).
    assert (I : forall i, items_read i [(o, (Done, @nil callback))] = [])
      by (intros i; destruct O as [ -> |[ -> |[ -> -> ]]]; reflexivity).
    assert (SB : forall c, subscribed c [(o, (Done, @nil callback))] = 0)
      by (intros i; destruct O as [ -> |[ -> |[ -> -> ]]]; reflexivity).
    assert (D : o <> MakeReader /\ (forall i, o <> DropReader i) /\ o <> DropHandle)
      by (destruct O as [ -> |[ -> |[ -> -> ]]]; repeat split; discriminate).
    destruct D as [D1 [D2 D3]].
    constructor; cbn [begin_close log a_status waiting a_closed a_closing a_handle a_next positions].
    - intros E. rewrite written_app, W, app_nil_r. exact (t_log _ _ T E).
    - rewrite written_app, W, app_nil_r. exact (t_prefix _ _ T).
    - intros i. rewrite items_app, I, app_nil_r. exact (t_items _ _ T i).
    - exact (t_ids _ _ T).
    - intros i L. rewrite items_app, I, app_nil_r. now apply (t_fresh _ _ T).
    - intros i. rewrite has_reader_other by auto. apply (t_reader _ _ T).
    - intros i cbs M. apply made_other in M; [|assumption]. now apply (t_made _ _ T i cbs).
    - intros i cbs M. apply dropped_other in M; [|apply D2]. now apply (t_dropped _ _ T i cbs).
    - rewrite in_snoc_other by congruence. apply (t_handle _ _ T).
    - now rewrite F.
    - now rewrite F, is_closed_app, C, NC, CL.
    - rewrite F. discriminate.
    - intros E. rewrite is_closed_app, C, NC. cbn. rewrite (t_status _ _ T E), NC. reflexivity.
    - intros c. rewrite subscribed_app, SB, runs_app, (t_callbacks _ _ T c). cbn. lia.
    - exact (t_waiting _ _ T).
  Qed.

  Lemma tells_close_again t a st o out :
    tells t a -> a_closed a = true ->
    o = Close st \/ o = TryClose st \/ (o = DestroyWriter /\ st = orphaned) ->
    tells (t ++ [(o, (out, []))]) a.
  Proof.
    intros T X O.
    assert (F : first_close orphaned (t ++ [(o, (out, []))]) = first_close orphaned t).
    { rewrite first_close_app. pose proof (t_flag _ _ T) as F. rewrite X in F.
      destruct (first_close orphaned t); [reflexivity|discriminate]. }
    assert (W : written [(o, (out, @nil callback))] = []) by (destruct O as [ -> |[ -> |[ -> -> ]]]; reflexivity).
    assert (C : is_closed [(o, (out, @nil callback))] = false)
      by (destruct O as [ -> |[ -> |[ -> -> ]]]; reflexivity).
    assert (I : forall i, items_read i [(o, (out, @nil callback))] = [])
      by (intros i; destruct O as [ -> |[ -> |[ -> -> ]]]; reflexivity).
    assert (SB : forall c, subscribed c [(o, (out, @nil callback))] = 0)
      by (intros i; destruct O as [ -> |[ -> |[ -> -> ]]]; reflexivity).
    assert (D : o <> MakeReader /\ (forall i, o <> DropReader i) /\ o <> DropHandle)
      by (destruct O as [ -> |[ -> |[ -> -> ]]]; repeat split; discriminate).
    destruct D as [D1 [D2 D3]].
    constructor.
    - intros E. rewrite written_app, W, app_nil_r. exact (t_log _ _ T E).
    - rewrite written_app, W, app_nil_r. exact (t_prefix _ _ T).
    - intros i. rewrite items_app, I, app_nil_r. exact (t_items _ _ T i).
    - exact (t_ids _ _ T).
    - intros i L. rewrite items_app, I, app_nil_r. now apply (t_fresh _ _ T).
    - intros i. rewrite has_reader_other by auto. apply (t_reader _ _ T).
    - intros i cbs M. apply made_other in M; [|assumption]. now apply (t_made _ _ T i cbs).
    - intros i cbs M. apply dropped_other in M; [|apply D2]. now apply (t_dropped _ _ T i cbs).
    - rewrite in_snoc_other by congruence. apply (t_handle _ _ T).
    - rewrite F. exact (t_flag _ _ T).
    - rewrite F, is_closed_app, C, orb_false_r. exact (t_closing _ _ T).
    - rewrite F, is_closed_app, C, orb_false_r. exact (t_closed _ _ T).
    - rewrite F, is_closed_app, C, orb_false_r. exact (t_status _ _ T).
    - intros c. rewrite subscribed_app, SB, runs_app, (t_callbacks _ _ T c). cbn. lia.
    - exact (t_waiting _ _ T).
  Qed.

  Lemma find_set l i p j :
    find_position l i <> None ->
    find_position (set_position l i p) j = if i =? j then Some p else find_position l j.
  Proof.
    induction l as [|[k q] l IH]; [easy|]. cbn. intros N.
    destruct (Nat.eqb_spec k i) as [->|NE].
    - cbn. destruct (i =? j); reflexivity.
    - cbn. destruct (Nat.eqb_spec k j) as [->|NJ].
      + destruct (Nat.eqb_spec i j); [congruence|reflexivity].
      + now apply IH.
  Qed.

  Lemma find_filter l i j :
    find_position (filter (fun jp => negb (fst jp =? i)) l) j
    = if i =? j then None else find_position l j.
  Proof.
    induction l as [|[k q] l IH]; [now destruct (i =? j)|]. cbn.
    destruct (Nat.eqb_spec k i) as [->|NE]; cbn; rewrite IH.
    - destruct (i =? j); reflexivity.
    - destruct (Nat.eqb_spec k j) as [->|NJ]; [|reflexivity].
      destruct (Nat.eqb_spec i j); [congruence|reflexivity].
  Qed.

  Lemma find_snoc l i p j :
    find_position (l ++ [(i, p)]) j
    = match find_position l j with
      | Some q => Some q
      | None => if i =? j then Some p else None
      end.
  Proof.
    induction l as [|[k q] l IH]; [reflexivity|]. cbn. destruct (k =? j); [reflexivity|exact IH].
  Qed.

  Lemma set_position_nil l i p : set_position l i p = [] -> l = [].
  Proof. destruct l as [|[k q] l]; [reflexivity|]. cbn. destruct (k =? i); discriminate. Qed.

  Lemma count_snoc c l d : count c (l ++ [d]) = count c l + (if callback_eqb c d then 1 else 0).
  Proof.
    unfold count. rewrite filter_app, app_length. cbn. destruct (callback_eqb c d); reflexivity.
  Qed.

  Lemma step_tells t a o :
    tells t a ->
    tells (t ++ [(o, snd (astep orphaned a o))]) (fst (astep orphaned a o)).
  Proof.
    intros T.
    destruct o as [v|v|st|st| |i| | |i|i m| |i]; cbn [astep].
    - destruct (a_expired _ _ a) eqn:X; cbn [fst snd].
      + same T; try congruence.
        destruct (t_prefix _ _ T) as [r R]. exists (r ++ [v]). rewrite R. now rewrite app_assoc.
      + destruct (a_status a) as [st|] eqn:ST; cbn [fst snd].
        * same T.
        * apply tells_append; auto.
    - destruct (a_expired _ _ a) eqn:X; cbn [fst snd].
      + same T.
      + destruct (a_status a) as [st|] eqn:ST; cbn [fst snd].
        * same T.
        * apply tells_append; auto.
    - destruct (a_closed a) eqn:CF; cbn [fst snd].
      + apply tells_close_again with (st := st); auto.
      + apply tells_begin_close; auto.
    - destruct (a_closed a) eqn:CF; cbn [fst snd].
      + apply tells_close_again with (st := st); auto.
      + apply tells_begin_close; auto.
    - destruct (a_closed a) eqn:CF; cbn [fst snd].
      + apply tells_close_again with (st := orphaned); auto.
      + apply tells_begin_close; auto.
    - pose proof (t_closing _ _ T) as CL.
      destruct (nth_error (a_closing a) i) as [st|] eqn:N; [|cbn [fst snd]; same T].
      destruct (first_close orphaned t) as [st'|] eqn:F;
        [|rewrite CL in N; destruct i; discriminate].
      destruct (is_closed t) eqn:C; [rewrite CL in N; destruct i; discriminate|].
      rewrite CL in N. destruct i as [|i]; [|destruct i; discriminate].
      assert (st' = st) by (cbn in N; congruence). subst st'.
      rewrite CL. cbn [remove_nth].
      destruct (a_expired _ _ a) eqn:X; cbn [fst snd].
      + same T; rewrite ?F, ?C; cbn [orb]; try congruence.
        change (a_expired _ _ a = false) in H. congruence.
      + pose proof (t_status _ _ T X) as ST. rewrite C in ST. rewrite ST. cbn [fst snd].
        same T; rewrite ?F, ?C; cbn [orb]; try congruence.
        destruct W.
    - cbn [fst snd]. same T.
    - destruct (a_handle a) eqn:H; cbn [fst snd].
      2: { same T.
           - split; intros R.
             + apply (t_reader _ _ T) in R. destruct R as [R1 R2]. split.
               * rewrite in_app_iff. now left.
               * now rewrite in_snoc_other by discriminate.
             + apply (t_reader _ _ T). destruct R as [R1 R2]. split.
               * rewrite in_snoc_other in R1 by congruence. exact R1.
               * now rewrite in_snoc_other in R2 by discriminate.
           - rewrite in_snoc_other in M by congruence. exact (t_made _ _ T _ _ M). }
      assert (E0 : a_expired _ _ a = false) by (unfold a_expired; now rewrite H).
      assert (FR : find_position (positions a) (a_next a) = None).
      { destruct (find_position (positions a) (a_next a)) as [q|] eqn:Q; [|reflexivity].
        apply (t_ids _ _ T) in Q. lia. }
      same T.
      + exact (t_log _ _ T E0).
      + destruct (t_items _ _ T i') as [p [P1 [P2 P3]]].
        destruct (Nat.eq_dec i' (a_next a)) as [->|NE].
        * exists 0. split; [lia|]. split; [now apply (t_fresh _ _ T)|].
          intros q. rewrite find_snoc, FR, Nat.eqb_refl. congruence.
        * exists p. split; [assumption|]. split; [assumption|].
          intros q. rewrite find_snoc.
          destruct (find_position (positions a) i') eqn:Q; [apply P3|].
          destruct (Nat.eqb_spec (a_next a) i'); [congruence|discriminate].
      + intros i q. rewrite find_snoc.
        destruct (find_position (positions a) i) eqn:Q.
        * apply (t_ids _ _ T) in Q. lia.
        * destruct (Nat.eqb_spec (a_next a) i); [lia|discriminate].
      + intros L. apply (t_fresh _ _ T). lia.
      + rewrite find_snoc. unfold has_reader. rewrite (in_snoc_other (DropReader _, _)) by discriminate.
        rewrite in_app_iff. cbn [In].
        pose proof (t_reader _ _ T i') as R. unfold has_reader in R.
        destruct (Nat.eqb_spec (a_next a) i') as [<-|NE].
        * rewrite FR. split; [intros _|intros _; now exists 0].
          split; [now right; left|]. intros D. apply (t_dropped _ _ T) in D. lia.
        * split.
          -- intros [q Q]. destruct (find_position (positions a) i') eqn:Q'; [|discriminate].
             destruct (proj1 R (ex_intro _ _ eq_refl)) as [R1 R2]. split; [now left|exact R2].
          -- intros [[R1|[R1|[]]] R2]; [|congruence].
             destruct (proj2 R (conj R1 R2)) as [q Q]. rewrite Q. now exists q.
      + rewrite in_app_iff in M. destruct M as [M|[M|[]]].
        * apply (t_made _ _ T) in M. lia.
        * assert (i' = a_next a) by congruence. lia.
      + apply dropped_other in M; [|discriminate]. apply (t_dropped _ _ T) in M. lia.
      + rewrite in_snoc_other by discriminate. rewrite <- (t_handle _ _ T), H. reflexivity.
      + exact (t_status _ _ T E0).
      + destruct (t_waiting _ _ T i' n' W) as [W1 [W2 W3]]. split; [lia|]. split; [assumption|].
        intros q. rewrite find_snoc. destruct (find_position (positions a) i') eqn:Q; [apply W3|].
        destruct (Nat.eqb_spec (a_next a) i'); [lia|discriminate].
    - destruct (find_position (positions a) i) as [p|] eqn:Q; cbn [fst snd]; [|same T].
      assert (QN : find_position (positions a) i <> None) by congruence.
      assert (E0 : a_expired _ _ a = false).
      { unfold a_expired. destruct (positions a); [discriminate|]. apply andb_false_r. }
      destruct (t_items _ _ T i) as [p' [P1 [P2 P3]]].
      assert (p = p') by now apply P3. subst p'.
      same T.
      + exact (t_log _ _ T E0).
      + destruct (Nat.eqb_spec i i') as [<-|NE].
        * unfold read_at. destruct (nth_error (log a) p) as [v|] eqn:NV.
          -- assert (L : p < length (log a)) by (apply nth_error_Some; congruence).
             apply Nat.ltb_lt in L as L'. rewrite L'. exists (S p). split; [assumption|].
             split; [|intros q; rewrite find_set, Nat.eqb_refl by assumption; congruence].
             rewrite P2.
             destruct (nth_error_split _ _ NV) as [l1 [l2 [LE LL]]].
             rewrite LE, <- LL. replace (S (length l1)) with (length l1 + 1) by lia.
             rewrite firstn_app_2. rewrite <- (Nat.add_0_r (length l1)) at 1.
             rewrite firstn_app_2. cbn. now rewrite app_nil_r.
          -- assert (L : length (log a) <= p) by now apply nth_error_None.
             destruct (Nat.ltb_spec p (length (log a))); [lia|].
             exists p. split; [assumption|].
             split; [|intros q; rewrite find_set, Nat.eqb_refl by assumption; congruence].
             rewrite P2. destruct (a_status a); cbn; now rewrite app_nil_r.
        * destruct (t_items _ _ T i') as [p2 [R1 [R2 R3]]]. exists p2. split; [assumption|].
          split.
          -- rewrite R2. destruct (Nat.eqb_spec i i'); [congruence|].
             destruct (read_at a p); cbn; now rewrite app_nil_r.
          -- intros q. rewrite find_set by assumption.
             destruct (Nat.eqb_spec i i'); [congruence|]. apply R3.
      + intros j q. rewrite find_set by assumption.
        destruct (Nat.eqb_spec i j) as [<-|NE]; [|apply (t_ids _ _ T)].
        intros _. exact (t_ids _ _ T _ _ Q).
      + intros L. rewrite (t_fresh _ _ T i' L). cbn [app].
        destruct (read_at a p); try reflexivity.
        destruct (Nat.eqb_spec i i') as [<-|]; [|reflexivity].
        apply (t_ids _ _ T) in Q. lia.
      + rewrite has_reader_other by discriminate. rewrite <- (t_reader _ _ T i').
        rewrite find_set by assumption. destruct (Nat.eqb_spec i i') as [<-|]; [|reflexivity].
        rewrite Q. split; intros _; eauto.
      + exact (t_status _ _ T E0).
      + destruct (t_waiting _ _ T i' n' W) as [W1 [W2 W3]]. split; [lia|]. split; [assumption|].
        intros q. rewrite find_set by assumption.
        destruct (Nat.eqb_spec i i') as [<-|]; [|apply W3].
        rewrite (W3 _ Q). rewrite Nat.ltb_irrefl. congruence.
    - destruct (find_position (positions a) i) as [p|] eqn:Q; cbn [fst snd]; [|same T].
      assert (E0 : a_expired _ _ a = false).
      { unfold a_expired. destruct (positions a); [discriminate|]. apply andb_false_r. }
      destruct (t_items _ _ T i) as [p' [P1 [P2 P3]]].
      assert (p = p') by now apply P3. subst p'.
      destruct (read_at a p) as [|v|st|] eqn:RA; cbn [fst snd].
      + same T.
        * rewrite count_snoc, (t_callbacks _ _ T c'). lia.
        * rewrite in_app_iff in W. destruct W as [W|[W|[]]]; [exact (t_waiting _ _ T i' n' W)|].
          assert (i' = i) by congruence. subst i'. split; [exact (t_ids _ _ T _ _ Q)|].
          unfold read_at in RA. destruct (nth_error (log a) p) eqn:NV; [discriminate|].
          apply nth_error_None in NV. destruct (a_status a); [discriminate|].
          split; [reflexivity|]. intros q Q'. assert (q = p) by congruence. lia.
      + same T. rewrite (t_callbacks _ _ T c'). destruct (callback_eqb c' (i, m)); cbn; lia.
      + same T. rewrite (t_callbacks _ _ T c'). destruct (callback_eqb c' (i, m)); cbn; lia.
      + same T. rewrite (t_callbacks _ _ T c'). destruct (callback_eqb c' (i, m)); cbn; lia.
    - destruct (a_handle a) eqn:H; cbn [fst snd].
      + assert (E0 : a_expired _ _ a = false) by (unfold a_expired; now rewrite H).
        same T.
        * exact (t_log _ _ T E0).
        * split; [discriminate|]. intros X. exfalso. apply X. rewrite in_app_iff. right. now left.
        * exact (t_status _ _ T E0).
      + same T.
    - destruct (find_position (positions a) i) as [p|] eqn:Q; cbn [fst snd].
      2: { same T.
           - rewrite (t_reader _ _ T i'). unfold has_reader. rewrite !in_snoc_other by congruence.
             reflexivity.
           - rewrite in_snoc_other in M by congruence. exact (t_dropped _ _ T _ _ M). }
      assert (E0 : a_expired _ _ a = false).
      { unfold a_expired. destruct (positions a); [discriminate|]. apply andb_false_r. }
      same T.
      + exact (t_log _ _ T E0).
      + destruct (t_items _ _ T i') as [p' [P1 [P2 P3]]]. exists p'. split; [assumption|].
        split; [assumption|]. intros q. rewrite find_filter. destruct (i =? i'); [discriminate|apply P3].
      + intros j q. rewrite find_filter. destruct (i =? j); [discriminate|apply (t_ids _ _ T)].
      + rewrite find_filter. unfold has_reader. rewrite (in_snoc_other (MakeReader, _)) by discriminate.
        destruct (Nat.eqb_spec i i') as [<-|NE].
        * split; [now intros [q X]|]. intros [_ X]. exfalso. apply X.
          rewrite in_app_iff. right. now left.
        * rewrite in_snoc_other by congruence. apply (t_reader _ _ T).
      + rewrite in_app_iff in M. destruct M as [M|[M|[]]].
        * exact (t_dropped _ _ T _ _ M).
        * assert (i' = i) by congruence. subst i'. exact (t_ids _ _ T _ _ Q).
      + exact (t_status _ _ T E0).
      + destruct (t_waiting _ _ T i' n' W) as [W1 [W2 W3]]. split; [lia|]. split; [assumption|].
        intros q. rewrite find_filter. destruct (i =? i'); [discriminate|apply W3].
  Qed.

  Lemma init_tells : tells [] (empty_log value status).
  Proof.
    constructor; cbn; try reflexivity; try easy.
    - now exists [].
    - intros i. exists 0. repeat split; [lia|discriminate].
    - intros i. unfold has_reader. split; [now intros [q X]|now intros [X _]].
  Qed.

  (** * Runs *)

  Lemma arun_length ops : forall a, length (snd (arun orphaned a ops)) = length ops.
  Proof.
    induction ops as [|o ops IH]; intros a; [reflexivity|]. cbn [arun snd length]. now rewrite IH.
  Qed.

  Lemma arun_snoc ops o : forall a,
    arun orphaned a (ops ++ [o])
    = (fst (astep orphaned (fst (arun orphaned a ops)) o),
       snd (arun orphaned a ops) ++ [snd (astep orphaned (fst (arun orphaned a ops)) o)]).
  Proof.
    induction ops as [|p ops IH]; intros a; [reflexivity|].
    cbn [arun app fst snd]. rewrite IH. reflexivity.
  Qed.

  Definition told ops : list (observation value status) :=
    combine ops (snd (arun orphaned (empty_log value status) ops)).
  Definition after ops := fst (arun orphaned (empty_log value status) ops).

  Lemma combine_snoc {A B} (l : list A) (m : list B) (x : A) (y : B) :
    length l = length m -> combine (l ++ [x]) (m ++ [y]) = combine l m ++ [(x, y)].
  Proof.
    revert m. induction l as [|u l IH]; intros [|w m] L; try discriminate; [reflexivity|].
    cbn in L |- *. rewrite IH; [reflexivity|congruence].
  Qed.

  Lemma told_snoc ops o : told (ops ++ [o]) = told ops ++ [(o, snd (astep orphaned (after ops) o))].
  Proof.
    unfold told, after. rewrite arun_snoc. cbn [snd]. apply combine_snoc.
    now rewrite arun_length.
  Qed.

  Lemma after_snoc ops o : after (ops ++ [o]) = fst (astep orphaned (after ops) o).
  Proof. unfold after. now rewrite arun_snoc. Qed.

  Lemma told_tells ops : tells (told ops) (after ops).
  Proof.
    induction ops as [|o ops IH] using rev_ind; [exact init_tells|].
    rewrite told_snoc, after_snoc. now apply step_tells.
  Qed.

  Lemma alive_iff t a : tells t a -> (alive t <-> a_expired _ _ a = false).
  Proof.
    intros T. unfold alive. rewrite <- (t_handle _ _ T). unfold a_expired. split.
    - intros [H|[i H]]; [now rewrite H|].
      apply (t_reader _ _ T) in H. destruct H as [q Q].
      destruct (positions a); [discriminate|]. apply andb_false_r.
    - destruct (a_handle a); [now left|]. destruct (positions a) as [|[i q] l] eqn:P; [discriminate|].
      intros _. right. exists i. apply (t_reader _ _ T). exists q. rewrite P. cbn.
      now rewrite Nat.eqb_refl.
  Qed.

  Lemma reader_alive t a i : tells t a -> has_reader i t -> a_expired _ _ a = false.
  Proof. intros T R. apply (alive_iff t a T). right. now exists i. Qed.

  Lemma read_ok t a i :
    tells t a -> has_reader i t ->
    exists p, find_position (positions a) i = Some p
      /\ snd (astep orphaned a (TryRead i)) = (Read (read_at a p), [])
      /\ read_says orphaned t i (read_at a p).
  Proof.
    intros T R. pose proof (reader_alive _ _ _ T R) as X.
    apply (t_reader _ _ T) in R. destruct R as [p P]. exists p. split; [assumption|].
    cbn [astep]. rewrite P. split; [reflexivity|].
    destruct (t_items _ _ T i) as [p' [P1 [P2 P3]]]. rewrite <- (P3 _ P) in *. clear p' P3.
    rewrite (t_log _ _ T X) in *. unfold read_at, read_says. rewrite (t_log _ _ T X), P2.
    destruct (nth_error (written t) p) as [v|] eqn:NV.
    - destruct (nth_error_split _ _ NV) as [l1 [l2 [LE LL]]]. exists l2.
      rewrite LE, <- LL. rewrite <- (Nat.add_0_r (length l1)) at 1.
      rewrite firstn_app_2. cbn. now rewrite app_nil_r.
    - apply nth_error_None in NV. rewrite (t_status _ _ T X).
      rewrite firstn_all2 by assumption.
      pose proof (t_closed _ _ T) as C.
      destruct (is_closed t); [|now split].
      destruct (first_close orphaned t); [now repeat split|]. now destruct C.
  Qed.

  Lemma count_zero c l : count c l = 0 \/ In c l.
  Proof.
    unfold count. induction l as [|d l IH]; [now left|]. cbn.
    destruct (callback_eqb c d) eqn:E; [|destruct IH as [IH|IH]; [now left|right; now right]].
    right. left. unfold callback_eqb in E. apply andb_prop in E. destruct E as [E1 E2].
    apply Nat.eqb_eq in E1. apply Nat.eqb_eq in E2. destruct c, d. cbn in *. now subst.
  Qed.

  Lemma callback_eqb_refl c : callback_eqb c c = true.
  Proof. unfold callback_eqb. now rewrite !Nat.eqb_refl. Qed.

  (** A callback is run when its reader has something to read. *)
  Lemma run_callback_ready t a o i m p :
    tells t a ->
    In (i, m) (snd (snd (astep orphaned a o))) ->
    find_position (positions (fst (astep orphaned a o))) i = Some p ->
    read_at (fst (astep orphaned a o)) p <> Empty.
  Proof.
    intros T.
    assert (A : forall v, In (i, m) (waiting a) -> find_position (positions a) i = Some p ->
              read_at (append _ _ a v) p <> Empty).
    { intros v W P. destruct (t_waiting _ _ T _ _ W) as [_ [_ W3]].
      unfold read_at. cbn [append log a_status]. rewrite (W3 _ P).
      rewrite nth_error_app2, Nat.sub_diag by lia. discriminate. }
    destruct o as [v|v|st|st| |j| | |j|j m'| |j]; cbn [astep].
    - destruct (a_expired _ _ a); [easy|]. destruct (a_status a); [easy|]. apply A.
    - destruct (a_expired _ _ a); [easy|]. destruct (a_status a); [easy|]. apply A.
    - destruct (a_closed a); easy.
    - destruct (a_closed a); easy.
    - destruct (a_closed a); easy.
    - destruct (nth_error (a_closing a) j); [|easy]. destruct (a_expired _ _ a); [easy|].
      destruct (a_status a); [easy|]. cbn [fst snd log a_status]. intros W P.
      unfold read_at. cbn [log a_status]. destruct (nth_error (log a) p); discriminate.
    - easy.
    - destruct (a_handle a); easy.
    - destruct (find_position (positions a) j); easy.
    - destruct (find_position (positions a) j) as [q|] eqn:Q; [|easy].
      destruct (read_at a q) eqn:RA; cbn [fst snd]; [easy|..]; intros [W|[]] P;
        assert (j = i) by congruence; subst j; assert (p = q) by congruence; subst q; congruence.
    - destruct (a_handle a); easy.
    - destruct (find_position (positions a) j); easy.
  Qed.
End Traces.

(** * The code itself *)

Section Observed.
  Context {value status : Type}.
  Variable orphaned : status.
  Variables bytesize initial : nat.
  Implicit Types ops : list (op value status).

  Lemma observe_told ops : observe orphaned bytesize initial ops = told orphaned ops.
  Proof.
    unfold observe, told. f_equal.
    apply (run_ok orphaned ops), make_ok, default_capacity_positive.
  Qed.

  Lemma observe_tells ops :
    tells orphaned (observe orphaned bytesize initial ops) (after orphaned ops).
  Proof. rewrite observe_told. apply told_tells. Qed.

  Lemma observe_snoc ops o :
    observe orphaned bytesize initial (ops ++ [o])
    = observe orphaned bytesize initial ops ++ [(o, snd (astep orphaned (after orphaned ops) o))].
  Proof. rewrite !observe_told. apply told_snoc. Qed.
End Observed.
