(** Proofs about futures. *)
From Coq Require Import List Bool PeanoNat Lia.
From Verif Require Import FutureModel FutureSpec.
Import ListNotations.
Local Open Scope nat_scope.

(** * Lists *)

Lemma nth_update {A} (l : list A) i x j :
  nth_error (update l i x) j
  = if i =? j then match nth_error l i with Some _ => Some x | None => None end
    else nth_error l j.
Proof.
  revert i j. induction l as [|y l IH]; intros i j.
  - cbn. destruct i, j; try reflexivity. cbn. now destruct (i =? j).
  - destruct i as [|i], j as [|j]; cbn; try reflexivity. rewrite IH.
    reflexivity.
Qed.

Lemma update_length {A} (l : list A) i x : length (update l i x) = length l.
Proof. revert i. induction l as [|y l IH]; intros [|i]; cbn; congruence. Qed.

Lemma in_update {A} (l : list A) i x y : In y (update l i x) -> y = x \/ In y l.
Proof.
  revert i. induction l as [|z l IH]; intros [|i]; cbn; try tauto.
  - intuition congruence.
  - intros [E|E]; [tauto|]. apply IH in E. tauto.
Qed.

Section Proofs.
  Context {value status : Type}.
  Variable matches : value -> bool.
  Variables orphaned ok : status.
  Notation world := (world value status).
  Notation result := (result value status).
  Implicit Types (t k : list (observation value status)) (w : world) (r : result).

  Ltac by_events t := induction t as [|[o out] t IH]; [reflexivity|]; cbn [app].

  Lemma given_app t k :
    given orphaned (t ++ k)
    = match given orphaned t with Some r => Some r | None => given orphaned k end.
  Proof. by_events t. destruct o; try exact IH; destruct out; try exact IH; reflexivity. Qed.

  Lemma added_app c t k : added c (t ++ k) = added c t + added c k.
  Proof.
    by_events t. destruct out; try exact IH; destruct o; try exact IH; cbn [added]; rewrite IH; lia.
  Qed.

  Lemma called_app c t k : called c (t ++ k) = called c t ++ called c k.
  Proof.
    by_events t. destruct o; try exact IH; destruct out; try exact IH. cbn [called].
    destruct (c =? _); [cbn [app]; now rewrite IH|exact IH].
  Qed.

  Lemma holder_app t k : holder (t ++ k) = holder_from (holder t) k.
  Proof.
    unfold holder. generalize (Some 0). induction t as [|[o out] t IH]; intros w; [reflexivity|].
    cbn [app holder_from]. apply IH.
  Qed.

  Lemma got_app i t k : got_item i (t ++ k) = got_item i t || got_item i k.
  Proof. unfold got_item. apply existsb_app. Qed.

  (** * The invariant *)

  Definition count (c : nat) (l : list nat) : nat := length (filter (Nat.eqb c) l).
  Definition pending (c : nat) (l : list (list (nat * result))) : nat :=
    count c (map fst (concat l)).

  Definition reader_ok t w (i : nat) (x : future_reader status) : Prop :=
    if read_ x then
      match value_ (fut w) with
      | Some (Value v) => status_ x = ok /\ got_item i t = true
      | Some (Error st) => status_ x = st /\ got_item i t = false
      | None => False
      end
    else status_ x = ok /\ got_item i t = false.

  Record tells t w : Prop := Tells {
    t_value : value_ (fut w) = given orphaned t;
    t_none : value_ (fut w) <> None -> consumers (fut w) = [];
    t_writers : forall i, nth_error (writers w) i = Some true <-> holder t = Some i;
    t_holder : value_ (fut w) <> None -> holder t = None;
    t_threads : forall c r, In (c, r) (concat (threads w)) -> value_ (fut w) = Some r;
    t_count : forall c, added c t
      = length (called c t) + pending c (threads w) + count c (consumers (fut w));
    t_called : forall c r, In r (called c t) -> value_ (fut w) = Some r;
    t_readers : forall i, has_reader i t <-> i < length (freaders w);
    t_fresh : forall i, length (freaders w) <= i -> got_item i t = false;
    t_reader : forall i x, nth_error (freaders w) i = Some x -> reader_ok t w i x;
    t_abandoned : (forall i, ~ In (AssignWriter i, Done) t) ->
      value_ (fut w) = None -> holder t <> None }.

  Lemma count_app c l m : count c (l ++ m) = count c l + count c m.
  Proof. unfold count. now rewrite filter_app, app_length. Qed.

  Lemma pending_app c l m : pending c (l ++ m) = pending c l + pending c m.
  Proof. unfold pending. now rewrite concat_app, map_app, count_app. Qed.

  Lemma pending_one c d r l : pending c [((d, r) :: l)] = (if c =? d then 1 else 0) + pending c [l].
  Proof. unfold pending, count. cbn. destruct (c =? d); reflexivity. Qed.

  Lemma pending_map c r l : pending c [map (fun d => (d, r)) l] = count c l.
  Proof.
    unfold pending. cbn. rewrite app_nil_r, map_map. cbn. now rewrite map_id.
  Qed.

  Lemma pending_cons c th l : pending c (th :: l) = pending c [th] + pending c l.
  Proof. exact (pending_app c [th] l). Qed.

  Lemma pending_update c l i d r calls :
    nth_error l i = Some ((d, r) :: calls) ->
    pending c l = (if c =? d then 1 else 0) + pending c (update l i calls).
  Proof.
    revert i. induction l as [|th l IH]; intros [|i]; cbn [nth_error update]; try discriminate.
    - intros E. assert (th = (d, r) :: calls) by congruence. subst th.
      rewrite (pending_cons c _ l), pending_one, (pending_cons c calls l). lia.
    - intros E. rewrite (pending_cons c th l), (pending_cons c th (update l i calls)), (IH _ E). lia.
  Qed.

  Lemma concat_in_update c r (l : list (list (nat * result))) i d s calls :
    nth_error l i = Some ((d, s) :: calls) ->
    In (c, r) (concat (update l i calls)) -> In (c, r) (concat l).
  Proof.
    revert i. induction l as [|th l IH]; intros [|i]; cbn [nth_error update concat]; try discriminate.
    - intros E. assert (th = (d, s) :: calls) by congruence. subst th.
      rewrite !in_app_iff. cbn. tauto.
    - intros E. rewrite !in_app_iff. intros [H|H]; [tauto|]. right. now apply (IH i).
  Qed.

  Lemma in_nth_concat c r (l : list (list (nat * result))) i calls :
    nth_error l i = Some ((c, r) :: calls) -> In (c, r) (concat l).
  Proof.
    intros E. apply nth_error_In in E. apply in_concat. eexists. split; [exact E|now left].
  Qed.

  Lemma in_snoc_other (x y : observation value status) t : x <> y -> (In x (t ++ [y]) <-> In x t).
  Proof. intros N. rewrite in_app_iff. cbn. intuition congruence. Qed.

  Lemma given_none t : match given orphaned t with Some r => Some r | None => None end = given orphaned t.
  Proof. now destruct (given orphaned t). Qed.

  Lemma holder_none t : match holder t with Some i => Some i | None => None end = holder t.
  Proof. now destruct (holder t). Qed.

  Lemma reader_same t w i x k w' :
    got_item i k = false -> value_ (fut w') = value_ (fut w) -> reader_ok t w i x -> reader_ok (t ++ k) w' i x.
  Proof. unfold reader_ok. intros G F. now rewrite got_app, G, orb_false_r, F. Qed.

  Lemma abandoned_other t o out i :
    o <> AssignWriter i -> (~ In (AssignWriter i, Done) (t ++ [(o, out)]) <-> ~ In (AssignWriter i, Done) t).
  Proof. intros N. now rewrite in_snoc_other by congruence. Qed.

  Ltac snoc :=
    rewrite ?given_app, ?added_app, ?called_app, ?holder_app, ?got_app;
    cbn [given added called holder_from got_item existsb app];
    rewrite ?given_none, ?holder_none, ?app_nil_r, ?Nat.add_0_r, ?orb_false_r.

  Ltac same w T :=
    constructor; cbn [fut value_ consumers writers threads freaders];
    [ snoc; try exact (t_value _ _ T)
    | try exact (t_none _ _ T)
    | let i := fresh "i" in intros i; snoc; try exact (t_writers _ _ T i)
    | let X := fresh in intros X; snoc; try exact (t_holder _ _ T X)
    | let c := fresh "c" in let r := fresh "r" in intros c r; try exact (t_threads _ _ T c r)
    | let c := fresh "c" in intros c; snoc; try exact (t_count _ _ T c)
    | let c := fresh "c" in let r := fresh "r" in intros c r; snoc; try exact (t_called _ _ T c r)
    | let i := fresh "i" in intros i; unfold has_reader;
      try (rewrite in_snoc_other by discriminate; exact (t_readers _ _ T i))
    | let i := fresh "i" in intros i; snoc; try exact (t_fresh _ _ T i)
    | let i := fresh "i" in let x := fresh "x" in let E := fresh "E" in intros i x E;
      try (apply (reader_same _ w); [reflexivity|reflexivity|exact (t_reader _ _ T i x E)])
    | let A := fresh "A" in let V := fresh "V" in intros A V; snoc;
      try (refine (t_abandoned _ _ T _ V);
           let i := fresh in intros i; specialize (A i); apply abandoned_other in A; [exact A|discriminate]) ].

  Lemma add_tells t w c o :
    tells t w -> o = AddConsumer c \/ (exists i, o = SubscribeOnce i c) ->
    tells (t ++ [(o, snd (add_consumer w c))]) (fst (add_consumer w c)).
  Proof.
    intros T O. unfold add_consumer. destruct (value_ (fut w)) as [r|] eqn:V; cbn [fst snd].
    - destruct O as [ -> |[j -> ]]; same w T;
        first
          [ rewrite concat_app, in_app_iff; intros [H|[H|[]]];
            [exact (t_threads _ _ T _ _ H)|congruence]
          | rewrite (t_count _ _ T), pending_app, pending_one; cbn; lia ].
    - rewrite <- V. destruct O as [ -> |[j -> ]]; same w T;
        first
          [ congruence
          | rewrite (t_count _ _ T), count_app; unfold count; cbn; destruct (_ =? _); cbn; lia ].
  Qed.

  Lemma set_tells t w i r o :
    tells t w -> holder t = Some i ->
    o = SetValue i r \/ (o = DestroyWriter i /\ r = Error orphaned) ->
    tells (t ++ [(o, snd (set_value matches w i r))]) (fst (set_value matches w i r)).
  Proof.
    intros T HD O. unfold set_value.
    destruct (match r with Value v => negb (matches v) | Error _ => false end) eqn:M; cbn [fst snd].
    { destruct O as [ -> |[ -> _ ]]; same w T. }
    destruct (value_ (fut w)) as [r'|] eqn:V; cbn [fst snd].
    { destruct O as [ -> |[ -> _ ]]; same w T. }
    assert (G : given orphaned t = None) by (rewrite <- (t_value _ _ T); exact V).
    assert (R : forall i x, nth_error (freaders w) i = Some x ->
                read_ x = false /\ status_ x = ok /\ got_item i t = false).
    { intros i' x E. pose proof (t_reader _ _ T i' x E) as R. unfold reader_ok in R.
      rewrite V in R. destruct (read_ x); [contradiction|]. now split. }
    assert (WR : forall i', nth_error (update (writers w) i false) i' <> Some true).
    { intros i'. rewrite nth_update. destruct (Nat.eqb_spec i i') as [<-|NE].
      - destruct (nth_error (writers w) i); discriminate.
      - intros E. apply (t_writers _ _ T) in E. congruence. }
    assert (O' : exists o', o = o' /\ forall (P : Prop), (given orphaned [(o, Calls)] = Some r /\
      (forall i, got_item i [(o, Calls)] = false) -> P) -> P).
    { exists o. split; [reflexivity|]. intros P HP. apply HP.
      destruct O as [ -> |[ -> -> ]]; now split. }
    destruct O' as [o' [<- O']]. apply O'. clear O'. intros [GO RO].
    assert (H : holder (t ++ [(o, Calls)]) = None).
    { rewrite holder_app, HD. destruct O as [ -> |[ -> -> ]]; reflexivity. }
    assert (AD : forall c, added c (t ++ [(o, Calls)]) = added c t).
    { intros c. rewrite added_app. destruct O as [ -> |[ -> -> ]]; cbn; lia. }
    assert (CA : forall c, called c (t ++ [(o, Calls)]) = called c t).
    { intros c. rewrite called_app. destruct O as [ -> |[ -> -> ]]; cbn; apply app_nil_r. }
    constructor; cbn [fut value_ consumers writers threads freaders].
    - now rewrite given_app, G, GO.
    - easy.
    - intros i'. rewrite H. split; [intros E; now apply WR in E|discriminate].
    - easy.
    - intros c r'. rewrite concat_app, in_app_iff. cbn [concat]. rewrite app_nil_r.
      intros [I|I]; [apply (t_threads _ _ T) in I; congruence|].
      apply in_map_iff in I. destruct I as [d [E _]]. congruence.
    - intros c. rewrite AD, CA, pending_app, pending_map, (t_count _ _ T). cbn. lia.
    - intros c r'. rewrite CA. intros I. apply (t_called _ _ T) in I. congruence.
    - intros i'. unfold has_reader. rewrite in_snoc_other; [apply (t_readers _ _ T)|].
      destruct O as [ -> |[ -> -> ]]; discriminate.
    - intros i' L. rewrite got_app, RO, orb_false_r. now apply (t_fresh _ _ T).
    - intros i' x E. destruct (R _ _ E) as [R1 [R2 R3]]. unfold reader_ok. rewrite R1.
      now rewrite got_app, R3, RO.
    - discriminate.
  Qed.

  Lemma writers_bound t w i : tells t w -> holder t = Some i -> i < length (writers w).
  Proof. intros T H. apply (t_writers _ _ T) in H. apply nth_error_Some. congruence. Qed.

  Lemma step_tells t w o :
    tells t w ->
    tells (t ++ [(o, snd (step matches orphaned ok w o))]) (fst (step matches orphaned ok w o)).
  Proof.
    intros T. destruct o as [c|i r|i|i|i|k| | |i|i c]; cbn [step].
    - apply add_tells; auto.
    - destruct (nth_error (writers w) i) as [[|]|] eqn:W; cbn [fst snd].
      + apply set_tells; auto. now apply (t_writers _ _ T).
      + same w T.
      + same w T.
    - destruct (nth_error (writers w) i) as [[|]|] eqn:W; cbn [fst snd].
      + apply set_tells; auto. now apply (t_writers _ _ T).
      + same w T.
      + same w T.
    - destruct (nth_error (writers w) i) as [b|] eqn:W; cbn [fst snd]; [|same w T].
      assert (HB : b = true <-> holder t = Some i).
      { rewrite <- (t_writers _ _ T), W. split; congruence. }
      assert (LW : i < length (writers w)) by (apply nth_error_Some; congruence).
      same w T.
      + destruct (Nat.lt_trichotomy i0 (length (writers w))) as [L|[L|L]].
        * rewrite nth_error_app1 by now rewrite update_length. rewrite nth_update.
          destruct (Nat.eqb_spec i i0) as [<-|NE].
          -- rewrite W. split; [discriminate|]. destruct (holder t) as [h|]; [|discriminate].
             destruct (Nat.eqb_spec i h) as [<-|NH]; intros E; [|congruence].
             assert (length (writers w) = i) by congruence. lia.
          -- rewrite (t_writers _ _ T i0). destruct (holder t) as [h|]; [|reflexivity].
             destruct (Nat.eqb_spec i h) as [<-|NH]; [|reflexivity].
             split; intros E; [congruence|]. assert (length (writers w) = i0) by congruence. lia.
        * subst i0. rewrite nth_error_app2, update_length, Nat.sub_diag by (rewrite update_length; lia).
          cbn [nth_error]. destruct (holder t) as [h|] eqn:HD.
          -- destruct (Nat.eqb_spec i h) as [<-|NH].
             ++ split; intros _; [reflexivity|]. f_equal. now apply HB.
             ++ split; intros E.
                ** assert (b = true) as Eb by congruence. apply HB in Eb. congruence.
                ** assert (h = length (writers w)) by congruence.
                   apply (writers_bound _ _ _ T) in HD. lia.
          -- split; [|discriminate]. intros E. assert (b = true) as Eb by congruence.
             now apply HB in Eb.
        * split; intros E.
          -- exfalso. assert (nth_error (update (writers w) i false ++ [b]) i0 = None); [|congruence].
             apply nth_error_None. rewrite app_length, update_length. cbn. lia.
          -- exfalso. destruct (holder t) as [h|] eqn:HD; [|discriminate].
             apply (writers_bound _ _ _ T) in HD.
             assert (i0 = length (writers w) \/ i0 = h) by (destruct (i =? h); [left|right]; congruence).
             lia.
      + rewrite (t_holder _ _ T H). reflexivity.
      + destruct (holder t) as [h|] eqn:HD; [destruct (i =? h); discriminate|].
        exfalso. refine (t_abandoned _ _ T _ V HD). intros j. specialize (A j).
        apply abandoned_other in A; [exact A|discriminate].
    - destruct (nth_error (writers w) i) as [b|] eqn:W; cbn [fst snd].
      + same w T.
        * rewrite nth_update. destruct (Nat.eqb_spec i i0) as [<-|NE].
          -- rewrite W. split; [discriminate|]. destruct (holder t) as [h|]; [|discriminate].
             destruct (Nat.eqb_spec i h); congruence.
          -- rewrite (t_writers _ _ T i0). destruct (holder t) as [h|]; [|reflexivity].
             destruct (Nat.eqb_spec i h); split; congruence.
        * rewrite (t_holder _ _ T H). reflexivity.
        * exfalso. apply (A i). rewrite in_app_iff. right. now left.
      + same w T. refine (t_abandoned _ _ T _ V). intros j. specialize (A j).
        now rewrite in_snoc_other in A by congruence.
    - destruct (nth_error (threads w) k) as [[|[c r] calls]|] eqn:W; cbn [fst snd]; try (now same w T).
      same w T.
      + intros I. apply (t_threads _ _ T c0). now apply (concat_in_update _ _ _ _ _ _ _ W).
      + rewrite (t_count _ _ T), (pending_update c0 _ _ _ _ _ W), app_length.
        destruct (c0 =? c); cbn; lia.
      + rewrite in_app_iff. intros [I|I]; [now apply (t_called _ _ T c0)|].
        destruct (c0 =? c); [|destruct I]. destruct I as [<-|[]].
        now apply (t_threads _ _ T c), (in_nth_concat _ _ _ _ _ W).
    - same w T.
    - cbn [fst snd]. same w T.
      + rewrite in_app_iff, app_length. cbn. change (In (MakeReader, Made i) t) with (has_reader i t).
        rewrite (t_readers _ _ T i). split.
        * intros [L|[E|[]]]; [lia|]. assert (length (freaders w) = i) by congruence. lia.
        * intros L. destruct (Nat.eq_dec i (length (freaders w))) as [->|]; [right; now left|left; lia].
      + rewrite app_length. cbn. intros L. apply (t_fresh _ _ T). lia.
      + destruct (Nat.lt_trichotomy i (length (freaders w))) as [L|[L|L]].
        * rewrite nth_error_app1 in E by assumption.
          apply (reader_same _ w); [reflexivity|reflexivity|exact (t_reader _ _ T i x E)].
        * subst i. rewrite nth_error_app2, Nat.sub_diag in E by lia.
          assert (x = FutureReader false ok) by (cbn in E; congruence). subst x.
          unfold reader_ok. cbn. split; [reflexivity|]. rewrite got_app. cbn.
          rewrite orb_false_r. apply (t_fresh _ _ T). lia.
        * exfalso. assert (nth_error (freaders w ++ [FutureReader false ok]) i = None); [|congruence].
          apply nth_error_None. rewrite app_length. cbn. lia.
    - destruct (nth_error (freaders w) i) as [x|] eqn:W; cbn [fst snd]; [|same w T].
      assert (L : i < length (freaders w)) by (apply nth_error_Some; congruence).
      pose proof (t_reader _ _ T i x W) as RX. unfold reader_ok in RX.
      same w T.
      + rewrite in_snoc_other by discriminate. rewrite update_length. apply (t_readers _ _ T).
      + rewrite update_length. intros L'. rewrite (t_fresh _ _ T i0 L'). cbn.
        destruct (snd (try_read w x)); try reflexivity. apply Nat.eqb_neq. lia.
      + rewrite nth_update, W in E. destruct (Nat.eqb_spec i i0) as [<-|NE].
        * assert (x0 = fst (try_read w x)) by congruence. subst x0. clear E.
          unfold reader_ok. rewrite got_app. cbn [fut got_item existsb].
          unfold try_read, peek_value. destruct (read_ x) eqn:RD; cbn [fst snd].
          -- rewrite RD. now rewrite orb_false_r.
          -- destruct (value_ (fut w)) as [[v|st]|] eqn:V; cbn [fst snd read_ status_].
             ++ rewrite Nat.eqb_refl, orb_true_r. now split.
             ++ rewrite orb_false_r. now split.
             ++ rewrite RD, orb_false_r. exact RX.
        * apply (reader_same _ w); [|reflexivity|exact (t_reader _ _ T i0 x0 E)].
          cbn. destruct (snd (try_read w x)); try reflexivity. rewrite orb_false_r.
          now apply Nat.eqb_neq.
    - destruct (nth_error (freaders w) i) as [x|] eqn:W; cbn [fst snd]; [|same w T].
      apply add_tells; eauto.
  Qed.

  Lemma init_tells : tells [] make_future.
  Proof.
    constructor; cbn; try easy.
    - intros i. unfold holder. cbn. destruct i as [|i]; cbn; [tauto|].
      destruct i; split; discriminate.
    - intros [|i] x; discriminate.
  Qed.

  (** * Runs *)

  Notation run := (run matches orphaned ok).
  Notation observe := (observe matches orphaned ok).

  Lemma run_length ops : forall w, length (snd (run w ops)) = length ops.
  Proof.
    induction ops as [|o ops IH]; intros w; [reflexivity|]. cbn [FutureModel.run snd length].
    now rewrite IH.
  Qed.

  Lemma run_app ops ops' : forall w,
    run w (ops ++ ops')
    = (fst (run (fst (run w ops)) ops'), snd (run w ops) ++ snd (run (fst (run w ops)) ops')).
  Proof.
    induction ops as [|o ops IH]; intros w; cbn [FutureModel.run app fst snd].
    - now destruct (run w ops').
    - now rewrite IH.
  Qed.

  Lemma combine_app {A B} (l1 l2 : list A) (m1 m2 : list B) :
    length l1 = length m1 -> combine (l1 ++ l2) (m1 ++ m2) = combine l1 m1 ++ combine l2 m2.
  Proof.
    revert m1. induction l1 as [|x l1 IH]; intros [|y m1] L; try discriminate; [reflexivity|].
    cbn in L |- *. rewrite IH; [reflexivity|congruence].
  Qed.

  Definition after ops : world := fst (run make_future ops).

  Lemma observe_snoc ops o :
    observe (ops ++ [o]) = observe ops ++ [(o, snd (step matches orphaned ok (after ops) o))].
  Proof.
    unfold FutureSpec.observe, after. rewrite run_app. cbn [snd].
    rewrite combine_app by now rewrite run_length. reflexivity.
  Qed.

  Lemma after_snoc ops o : after (ops ++ [o]) = fst (step matches orphaned ok (after ops) o).
  Proof. unfold after. rewrite run_app. reflexivity. Qed.

  Lemma observe_tells ops : tells (observe ops) (after ops).
  Proof.
    induction ops as [|o ops IH] using rev_ind; [exact init_tells|].
    rewrite observe_snoc, after_snoc. now apply step_tells.
  Qed.
End Proofs.
