(** Proofs about chains of streams. *)
From Coq Require Import List Bool PeanoNat Lia.
From Verif Require Import ChainModel ChainSpec.
Import ListNotations.
Local Open Scope nat_scope.

Lemma update_middle A (pre : list A) x post y :
  update (pre ++ x :: post) (length pre) y = pre ++ y :: post.
Proof. induction pre as [|z pre IH]; cbn; [reflexivity|now rewrite IH]. Qed.

Lemma update_left A (pre : list A) post i y :
  i < length pre -> update (pre ++ post) i y = update pre i y ++ post.
Proof.
  revert i; induction pre as [|z pre IH]; intros [|i] H; cbn in *; try lia; [reflexivity|].
  rewrite IH by lia. reflexivity.
Qed.

Lemma update_right A (pre : list A) x post i y :
  length pre < i ->
  update (pre ++ x :: post) i y = pre ++ x :: update post (i - S (length pre)) y.
Proof.
  revert i; induction pre as [|z pre IH]; intros i H; cbn in *.
  - destruct i as [|i]; [lia|]. cbn. now rewrite Nat.sub_0_r.
  - destruct i as [|i]; [lia|]. rewrite IH by lia. reflexivity.
Qed.

Lemma nth_middle A (pre : list A) x post : nth_error (pre ++ x :: post) (length pre) = Some x.
Proof. rewrite nth_error_app2, Nat.sub_diag by lia. reflexivity. Qed.

Lemma Forall_update A (P : A -> Prop) l i x :
  Forall P l -> P x -> Forall P (update l i x).
Proof.
  intros F H; revert i; induction F as [|y l Hy F IH]; intros [|i]; cbn; constructor; auto.
Qed.

Lemma update_length A (l : list A) i x : length (update l i x) = length l.
Proof. revert i; induction l as [|y l IH]; intros [|i]; cbn; auto. Qed.

Lemma update_at_end A (l : list A) x y : update (l ++ [x]) (length l) y = l ++ [y].
Proof. apply update_middle. Qed.

(** Where an index lies. *)
Lemma index_cases A (pre : list A) x post i y :
  nth_error (pre ++ x :: post) i = Some y ->
  (i < length pre /\ nth_error pre i = Some y) \/ (i = length pre /\ y = x) \/
  (length pre < i /\ nth_error post (i - S (length pre)) = Some y).
Proof.
  intros H. destruct (Nat.lt_total i (length pre)) as [L|[ -> |G]].
  - left. split; [exact L|]. now rewrite nth_error_app1 in H by exact L.
  - right; left. rewrite nth_middle in H. split; [reflexivity|congruence].
  - right; right. split; [exact G|]. rewrite nth_error_app2 in H by lia.
    replace (i - length pre) with (S (i - S (length pre))) in H by lia. exact H.
Qed.

Section Proofs.
  Variables value error : Type.
  Notation input := (input value error).
  Notation chain := (chain value error).
  Notation pc := (pc value error).
  Implicit Types (x : input) (c : chain).

  Definition reads x : list value := firstn (position x) (log x).
  Definition old x : Prop :=
    closed x = Some OK /\ position x = length (log x) /\ subscribed x = false.
  Definition fresh x : Prop := position x = 0 /\ subscribed x = false.
  Definition all_logs (l : list input) : list value := concat (map (@log _ _) l).

  (** The state while input x, after the inputs [pre], is being processed by a
      thread at the given point, or by its callback. *)
  Definition at_point (pre : list input) x c (p : option pc) : Prop :=
    match p with
    | None =>
        subscribed x = true /\ closed x = None /\ position x = length (log x) /\
        out_status c = None /\ written c = all_logs pre ++ log x
    | Some p =>
        subscribed x = false /\
        match p with
        | Start => out_status c = None /\ written c = all_logs pre ++ reads x
        | Reading i | Subscribing i =>
            i = length pre /\ out_status c = None /\ written c = all_logs pre ++ reads x
        | Writing i v =>
            i = length pre /\ out_status c = None /\
            exists q, position x = S q /\ nth_error (log x) q = Some v /\
                      written c = all_logs pre ++ firstn q (log x)
        | Popping =>
            closed x = Some OK /\ position x = length (log x) /\
            out_status c = None /\ written c = all_logs pre ++ log x
        | Closing st =>
            exists e, st = Err e /\ closed x = Some (Err e) /\ position x = length (log x) /\
                      out_status c = None /\ written c = all_logs pre ++ log x
        | Clearing =>
            exists e, closed x = Some (Err e) /\ position x = length (log x) /\
                      out_status c = Some (Err e) /\ written c = all_logs pre ++ log x
        end
    end.

  Inductive inv c : Prop :=
  | Inv_idle :
      Forall old (inputs c) -> pending_inputs c = [] -> error_reported c = false ->
      threads c = [] -> written c = all_logs (inputs c) ->
      out_status c = (if destroyed c then Some OK else None) ->
      (destroyed c = true -> owned c = false) -> inv c
  | Inv_busy pre x post p :
      inputs c = pre ++ x :: post -> Forall old pre -> Forall fresh post ->
      position x <= length (log x) ->
      pending_inputs c = seq (length pre) (S (length post)) -> error_reported c = false ->
      destroyed c = false ->
      threads c = match p with Some p => [p] | None => [] end ->
      at_point pre x c p -> inv c
  | Inv_failed pre x post e :
      inputs c = pre ++ x :: post -> Forall old pre -> Forall fresh post ->
      subscribed x = false -> closed x = Some (Err e) -> position x = length (log x) ->
      pending_inputs c = [] -> error_reported c = true -> threads c = [] ->
      out_status c = Some (Err e) -> written c = all_logs pre ++ log x -> inv c.

  Lemma inv_make : inv make_chain.
  Proof. apply Inv_idle; cbn; auto; discriminate. Qed.

  Lemma all_logs_app l m : all_logs (l ++ m) = all_logs l ++ all_logs m.
  Proof. unfold all_logs. now rewrite map_app, concat_app. Qed.

  Lemma reads_all x : position x = length (log x) -> reads x = log x.
  Proof. intros H. unfold reads. rewrite H. apply firstn_all. Qed.

  Lemma try_read_item x v :
    try_read x = Item v -> nth_error (log x) (position x) = Some v.
  Proof.
    unfold try_read. destruct (nth_error (log x) (position x)); [congruence|].
    destruct (closed x); discriminate.
  Qed.
  Lemma try_read_closed x st :
    try_read x = Closed st -> length (log x) <= position x /\ closed x = Some st.
  Proof.
    unfold try_read. destruct (nth_error (log x) (position x)) eqn:E; [discriminate|].
    apply nth_error_None in E. destruct (closed x); [|discriminate].
    intros H; split; [exact E|congruence].
  Qed.
  Lemma try_read_empty x :
    try_read x = Empty -> length (log x) <= position x /\ closed x = None.
  Proof.
    unfold try_read. destruct (nth_error (log x) (position x)) eqn:E; [discriminate|].
    apply nth_error_None in E. destruct (closed x); [discriminate|]. auto.
  Qed.

  Lemma no_subscription (l : list input) :
    subscribed_anywhere l = false -> Forall (fun x => subscribed x = false) l.
  Proof.
    induction l as [|x l IH]; cbn; intros H; constructor; apply orb_false_iff in H; tauto.
  Qed.

  Lemma subscription_somewhere (pre : list input) x post :
    subscribed x = true -> subscribed_anywhere (pre ++ x :: post) = true.
  Proof.
    intros H. unfold subscribed_anywhere. rewrite existsb_app. cbn. rewrite H.
    cbn. now rewrite orb_true_r.
  Qed.

  Lemma no_subscriptions (l : list input) :
    Forall (fun x => subscribed x = false) l -> subscribed_anywhere l = false.
  Proof. induction 1 as [|x l H F IH]; cbn; [reflexivity|]. now rewrite H. Qed.

  Lemma old_unsubscribed (l : list input) :
    Forall old l -> Forall (fun x => subscribed x = false) l.
  Proof. apply Forall_impl. intros x [_ [_ H]]. exact H. Qed.
  Lemma fresh_unsubscribed (l : list input) :
    Forall fresh l -> Forall (fun x => subscribed x = false) l.
  Proof. apply Forall_impl. intros x [_ H]. exact H. Qed.

  Lemma nth_Forall A (P : A -> Prop) l i y : Forall P l -> nth_error l i = Some y -> P y.
  Proof. intros F H. apply nth_error_In in H. rewrite Forall_forall in F. auto. Qed.

  Definition fine (o : output) : Prop := o <> Fatal /\ o <> CheckFailed.

  Lemma fine_done : fine Done. Proof. split; discriminate. Qed.
  Lemma fine_impossible : fine Impossible. Proof. split; discriminate. Qed.
  Hint Resolve fine_done fine_impossible : core.

  Lemma firstn_snoc (A : Type) (l : list A) q v :
    nth_error l q = Some v -> firstn (S q) l = firstn q l ++ [v].
  Proof.
    revert q; induction l as [|y l IH]; intros [|q] H; cbn in *; try discriminate.
    - injection H as ->. reflexivity.
    - now rewrite (IH _ H).
  Qed.

  (** Writing to an input at any time. *)
  Lemma at_point_extend pre x c c' p v :
    at_point pre x c p -> closed x = None -> position x <= length (log x) ->
    out_status c' = out_status c -> written c' = written c ->
    at_point pre (extend x v) c' (match p with None => Some Start | _ => p end).
  Proof.
    intros A E L O W.
    assert (R : firstn (position x) (log x ++ [v]) = firstn (position x) (log x)).
    { rewrite firstn_app. replace (position x - length (log x)) with 0 by lia.
      cbn. apply app_nil_r. }
    destruct p as [[]|]; cbn in *; unfold reads in *; cbn; rewrite ?O, ?W, ?R; try tauto.
    - destruct A as (S & I & N & q & Q & V & A). repeat split; auto. exists q.
      rewrite Q in L. split; [exact Q|].
      rewrite nth_error_app1 by lia. split; [exact V|].
      rewrite A. f_equal. rewrite firstn_app. replace (q - length (log x)) with 0 by lia.
      cbn. now rewrite app_nil_r.
    - destruct A as (_ & C & _). congruence.
    - destruct A as (_ & e & _ & C & _). congruence.
    - destruct A as (_ & e & C & _). congruence.
    - destruct A as (_ & _ & P & N & A). repeat split; auto. rewrite A. f_equal.
      rewrite P. now rewrite firstn_all.
  Qed.

  Lemma at_point_finish pre x c c' p st :
    at_point pre x c p -> closed x = None -> position x <= length (log x) ->
    out_status c' = out_status c -> written c' = written c ->
    at_point pre (finish x st) c' (match p with None => Some Start | _ => p end).
  Proof.
    intros A E L O W.
    destruct p as [[]|]; cbn in *; unfold reads in *; cbn; rewrite ?O, ?W; try tauto.
    - destruct A as (_ & C & _). congruence.
    - destruct A as (_ & e & _ & C & _). congruence.
    - destruct A as (_ & e & C & _). congruence.
    - destruct A as (_ & _ & P & N & A). repeat split; auto. rewrite A. f_equal.
      rewrite P. now rewrite firstn_all.
  Qed.

  Lemma fresh_extend y v : fresh y -> fresh (extend y v).
  Proof. intros [H _]. split; [exact H|reflexivity]. Qed.
  Lemma fresh_finish y st : fresh y -> fresh (finish y st).
  Proof. intros [H _]. split; [exact H|reflexivity]. Qed.

  Lemma subscribed_point pre x c p :
    at_point pre x c p ->
    (if subscribed x then match p with Some p => [p] | None => [] end ++ [Start]
     else match p with Some p => [p] | None => [] end)
    = match (match p with None => Some Start | _ => p end) with Some p => [p] | None => [] end.
  Proof.
    destruct p as [p|]; cbn; intros A.
    - destruct A as [H _]. now rewrite H.
    - destruct A as [H _]. now rewrite H.
  Qed.

  (** A change of input i from outside. *)
  Lemma env_inv c i y y' :
    inv c -> nth_error (inputs c) i = Some y -> closed y = None ->
    (exists v, y' = extend y v) \/ (exists st, y' = finish y st) ->
    inv (set_inputs c (update (inputs c) i y')
           (if subscribed y then threads c ++ [Start] else threads c)).
  Proof.
    intros V Ny Cy Hy'.
    destruct V as [F P E T W O D | pre x post p I F G L P E D T A
                  | pre x post e I F G Su Cx Px P E T O W].
    - destruct (nth_Forall _ _ _ _ _ F Ny) as [C _]. congruence.
    - rewrite I in *. destruct (index_cases _ _ _ _ _ _ Ny) as [[Li H]|[[Li H]|[Li H]]].
      + destruct (nth_Forall _ _ _ _ _ F H) as [C _]. congruence.
      + subst i y. rewrite update_middle.
        apply Inv_busy with (pre := pre) (x := y') (post := post)
          (p := match p with None => Some Start | _ => p end); cbn; auto.
        * destruct Hy' as [[v ->]|[st ->]]; cbn; rewrite ?app_length; lia.
        * rewrite T. exact (subscribed_point _ _ _ _ A).
        * destruct Hy' as [[v ->]|[st ->]].
          -- eapply at_point_extend; eauto.
          -- eapply at_point_finish; eauto.
      + rewrite update_right by exact Li.
        destruct (nth_Forall _ _ _ _ _ G H) as [Py Sy]. rewrite Sy.
        apply Inv_busy with (pre := pre) (x := x)
          (post := update post (i - S (length pre)) y') (p := p); cbn; auto.
        * apply Forall_update; [exact G|].
          destruct Hy' as [[v ->]|[st ->]]; [apply fresh_extend|apply fresh_finish]; split; auto.
        * now rewrite update_length.
    - rewrite I in *. destruct (index_cases _ _ _ _ _ _ Ny) as [[Li H]|[[Li H]|[Li H]]].
      + destruct (nth_Forall _ _ _ _ _ F H) as [C _]. congruence.
      + congruence.
      + rewrite update_right by exact Li.
        destruct (nth_Forall _ _ _ _ _ G H) as [Py Sy]. rewrite Sy.
        apply Inv_failed with (pre := pre) (x := x)
          (post := update post (i - S (length pre)) y') (e := e); cbn; auto.
        apply Forall_update; [exact G|].
        destruct Hy' as [[v ->]|[st ->]]; [apply fresh_extend|apply fresh_finish]; split; auto.
  Qed.

  Lemma seq_snoc a n : seq a (S n) = seq a n ++ [a + n].
  Proof. replace (S n) with (n + 1) by lia. rewrite seq_app. reflexivity. Qed.

  Lemma add_inv c l st :
    inv c -> owned c = true -> inv (fst (add_input c (Input l st 0 false))).
  Proof.
    intros V Ow. unfold add_input.
    destruct V as [F P E T W O D | pre x post p I F G L P E D T A
                  | pre x post e I F G Su Cx Px P E T O W]; rewrite E; cbn [fst].
    - assert (Dd : destroyed c = false).
      { destruct (destroyed c); [|reflexivity]. rewrite D in Ow by reflexivity. discriminate. }
      apply Inv_busy with (pre := inputs c) (x := Input l st 0 false) (post := [])
                          (p := Some Start); cbn; auto.
      + lia.
      + now rewrite P.
      + now rewrite P, T.
      + rewrite O, Dd. repeat split; auto. cbn. rewrite W. now rewrite app_nil_r.
    - apply Inv_busy with (pre := pre) (x := x) (post := post ++ [Input l st 0 false])
                          (p := p); cbn [inputs pending_inputs error_reported written
                            out_status threads owned destroyed]; auto.
      + rewrite I. now rewrite <- app_assoc.
      + apply Forall_app; split; [exact G|]. constructor; [|constructor].
        split; reflexivity.
      + rewrite P, I, !app_length. cbn [length].
        replace (length post + 1) with (S (length post)) by lia.
        rewrite (seq_snoc _ (S (length post))). reflexivity.
      + rewrite P. exact T.
    - apply Inv_failed with (pre := pre) (x := x) (post := post ++ [Input l st 0 false]) (e := e);
        cbn; auto.
      + rewrite I. now rewrite <- app_assoc.
      + apply Forall_app; split; [exact G|]. constructor; [|constructor].
        split; reflexivity.
  Qed.

  Lemma seq_cons_inv a n b l : a :: l = seq b (S n) -> a = b /\ l = seq (S b) n.
  Proof. cbn. intros H. split; congruence. Qed.

  Lemma step_thread_inv c k p :
    inv c -> nth_error (threads c) k = Some p ->
    inv (fst (thread_step c k p)) /\ snd (thread_step c k p) = Done.
  Proof.
    intros V Np.
    destruct V as [F P E T W O D | pre x post p' I F G L P E D T A
                  | pre x post e I F G Su Cx Px P E T O W].
    - rewrite T in Np. destruct k; discriminate.
    - destruct p' as [q|]; rewrite T in Np; [|destruct k; discriminate].
      destruct k as [|[|k]]; cbn in Np; try discriminate. injection Np as ->.
      destruct p as [|i|i v| |st| |i]; cbn [thread_step]; destruct A as [Su A].
      + (* Start *)
        rewrite P. cbn [seq]. rewrite E. cbn [fst snd]. split; [|reflexivity].
        apply Inv_busy with (pre := pre) (x := x) (post := post)
          (p := Some (Reading (length pre))); cbn; auto.
        now rewrite T.
      + (* Reading *)
        destruct A as (-> & O & W). rewrite I, nth_middle.
        destruct (try_read x) as [|v|[|e]] eqn:R; cbn [fst snd]; (split; [|reflexivity]).
        * apply Inv_busy with (pre := pre) (x := x) (post := post)
            (p := Some (Subscribing (length pre))); cbn; auto. now rewrite T.
        * apply try_read_item in R.
          assert (Lt : position x < length (log x)) by (apply nth_error_Some; congruence).
          rewrite update_middle.
          apply Inv_busy with (pre := pre) (x := advance x) (post := post)
            (p := Some (Writing (length pre) v)); cbn; auto.
          -- now rewrite T.
          -- repeat split; auto. exists (position x). auto.
        * apply try_read_closed in R. destruct R as [R1 R2].
          assert (position x = length (log x)) by lia.
          apply Inv_busy with (pre := pre) (x := x) (post := post) (p := Some Popping);
            cbn; auto.
          -- now rewrite T.
          -- rewrite (reads_all x) in W by assumption. auto.
        * apply try_read_closed in R. destruct R as [R1 R2].
          assert (position x = length (log x)) by lia.
          apply Inv_busy with (pre := pre) (x := x) (post := post) (p := Some (Closing (Err e)));
            cbn; auto.
          -- now rewrite T.
          -- split; [exact Su|]. exists e. rewrite (reads_all x) in W by assumption. auto.
      + (* Writing *)
        destruct A as (-> & O & q & Q & Nv & W). rewrite O. cbn [fst snd].
        split; [|reflexivity].
        apply Inv_busy with (pre := pre) (x := x) (post := post)
          (p := Some (Reading (length pre))); cbn; auto.
        * now rewrite T.
        * repeat split; auto. unfold reads. rewrite Q, (firstn_snoc _ _ _ _ Nv), W.
          now rewrite app_assoc.
      + (* Popping *)
        destruct A as (C & Px & O & W). rewrite P. cbn [seq fst snd]. split; [|reflexivity].
        assert (Ox : old x) by (split; auto).
        destruct post as [|y post].
        * apply Inv_idle; cbn [inputs pending_inputs error_reported written
            out_status threads owned destroyed seq length]; auto.
          -- rewrite I. apply Forall_app; split; [exact F|]. now constructor.
          -- now rewrite T.
          -- rewrite I, W, all_logs_app. cbn. now rewrite app_nil_r.
          -- now rewrite D, O.
          -- rewrite D. discriminate.
        * inversion G as [|? ? [Py Sy] G']; subst.
          apply Inv_busy with (pre := pre ++ [x]) (x := y) (post := post)
            (p := Some (Reading (S (length pre)))); cbn [inputs pending_inputs error_reported written
            out_status threads owned destroyed seq length]; auto.
          -- rewrite I. now rewrite <- app_assoc.
          -- apply Forall_app; split; [exact F|]. now constructor.
          -- lia.
          -- rewrite app_length. cbn [length]. now replace (length pre + 1) with (S (length pre)) by lia.
          -- now rewrite T.
          -- cbn. rewrite app_length. cbn [length]. repeat split; auto; [lia|].
             unfold reads. rewrite Py. cbn. rewrite W, all_logs_app. cbn.
             now rewrite !app_nil_r.
      + (* Closing *)
        destruct A as (e & -> & C & Px & O & W). rewrite O. cbn [fst snd]. split; [|reflexivity].
        apply Inv_busy with (pre := pre) (x := x) (post := post) (p := Some Clearing);
          cbn; auto.
        * now rewrite T.
        * split; [exact Su|]. exists e. auto.
      + (* Clearing *)
        destruct A as (e & C & Px & O & W). cbn [fst snd]. split; [|reflexivity].
        apply Inv_failed with (pre := pre) (x := x) (post := post) (e := e); cbn; auto.
        now rewrite T.
      + (* Subscribing *)
        destruct A as (-> & O & W). rewrite I, nth_middle.
        destruct (try_read x) as [|v|st] eqn:R; cbn [fst snd]; (split; [|reflexivity]).
        * apply try_read_empty in R. destruct R as [R1 R2].
          assert (position x = length (log x)) by lia.
          rewrite update_middle.
          apply Inv_busy with (pre := pre) (x := subscribe x) (post := post) (p := None);
            cbn; auto.
          -- now rewrite T.
          -- rewrite (reads_all x) in W by assumption. auto.
        * apply Inv_busy with (pre := pre) (x := x) (post := post) (p := Some Start); cbn; auto.
          now rewrite T.
        * apply Inv_busy with (pre := pre) (x := x) (post := post) (p := Some Start); cbn; auto.
          now rewrite T.
    - rewrite T in Np. destruct k; discriminate.
  Qed.

  Lemma step_inv c o : inv c -> inv (fst (step c o)) /\ fine (snd (step c o)).
  Proof.
    intros V. destruct o as [l st|i v|i st|k| |]; cbn [step].
    - destruct (owned c) eqn:E; [|auto]. split; [now apply add_inv|].
      unfold add_input. destruct (error_reported c); auto.
    - destruct (nth_error (inputs c) i) as [y|] eqn:Ny; [|auto].
      destruct (closed y) eqn:C; [auto|]. cbn [fst snd]. split; [|auto].
      eapply env_inv; eauto.
    - destruct (nth_error (inputs c) i) as [y|] eqn:Ny; [|auto].
      destruct (closed y) eqn:C; [auto|]. cbn [fst snd]. split; [|auto].
      eapply env_inv; eauto.
    - destruct (nth_error (threads c) k) as [p|] eqn:Np; [|auto].
      destruct (step_thread_inv c k p V Np) as [V' ->]. auto.
    - destruct (owned c) eqn:Ow; [|auto]. cbn [fst snd]. split; [|auto].
      destruct V as [F P E T W O D | pre x post p I F G L P E D T A
                    | pre x post e I F G Su Cx Px P E T O W].
      + apply Inv_idle; cbn; auto.
      + apply Inv_busy with (pre := pre) (x := x) (post := post) (p := p); cbn; auto.
      + apply Inv_failed with (pre := pre) (x := x) (post := post) (e := e); cbn; auto.
    - destruct V as [F P E T W O D | pre x post p I F G L P E D T A
                    | pre x post e I F G Su Cx Px P E T O W]; rewrite T.
      + destruct (owned c || destroyed c || _) eqn:X; [split; [apply Inv_idle; auto|auto]|].
        apply orb_false_iff in X. destruct X as [X _]. apply orb_false_iff in X.
        destruct X as [_ X]. rewrite X in O.
        rewrite P, E, O. cbn [fst snd]. split; [|auto]. apply Inv_idle; cbn; auto.
      + destruct p as [p|].
        * split; [apply Inv_busy with (pre := pre) (x := x) (post := post) (p := Some p); auto|auto].
        * rewrite I, (subscription_somewhere pre x post (proj1 A)), orb_true_r.
          split; [|auto]. cbn [fst]. apply Inv_busy with (pre := pre) (x := x) (post := post) (p := None); auto.
      + destruct (owned c || destroyed c || _) eqn:X.
        * split; [apply Inv_failed with (pre := pre) (x := x) (post := post) (e := e); auto|auto].
        * rewrite P, E. split; [|auto]. cbn [fst].
          apply Inv_failed with (pre := pre) (x := x) (post := post) (e := e); cbn; auto.
  Qed.

  Lemma run_inv ops : forall c, inv c -> inv (fst (run c ops)) /\ Forall fine (snd (run c ops)).
  Proof.
    induction ops as [|o ops IH]; intros c V; cbn; [auto|].
    destruct (step_inv c o V) as [V' Fo]. destruct (IH _ V') as [V'' Fr].
    split; [exact V''|]. constructor; auto.
  Qed.

  Lemma reachable ops : inv (fst (run make_chain ops)).
  Proof. apply (run_inv ops), inv_make. Qed.

  (** The streams of the specification. *)
  Definition content_of x : content value error := (log x, closed x).
  Definition contents c : list (content value error) * bool := (map content_of (inputs c), owned c).

  Lemma change_update (l : list input) i y y' f :
    nth_error l i = Some y -> content_of y' = f (content_of y) ->
    map content_of (update l i y') = change (map content_of l) i f.
  Proof.
    revert i; induction l as [|z l IH]; intros [|i] H E; cbn in *; try discriminate.
    - injection H as ->. now rewrite E.
    - now rewrite (IH _ H E).
  Qed.

  Lemma change_same l i (y : input) f :
    nth_error l i = Some y -> f (content_of y) = content_of y ->
    change (map content_of l) i f = map content_of l.
  Proof.
    revert i; induction l as [|z l IH]; intros [|i] H E; cbn in *; try discriminate.
    - injection H as ->. now rewrite E.
    - now rewrite (IH _ H E).
  Qed.

  Lemma change_none (l : list (content value error)) i f :
    nth_error l i = None -> change l i f = l.
  Proof.
    revert i; induction l as [|z l IH]; intros [|i] H; cbn in *; try discriminate; auto.
    now rewrite (IH _ H).
  Qed.

  Lemma update_same_contents (l : list input) i y y' :
    nth_error l i = Some y -> content_of y' = content_of y ->
    map content_of (update l i y') = map content_of l.
  Proof.
    intros H E. rewrite (change_update l i y y' (fun s => s) H E).
    now apply change_same with (y := y).
  Qed.

  Lemma thread_contents c k p : contents (fst (thread_step c k p)) = contents c.
  Proof.
    unfold contents. destruct p as [|i|i v| |st| |i]; cbn [thread_step].
    - destruct (pending_inputs c); [reflexivity|]. destruct (error_reported c); reflexivity.
    - destruct (nth_error (inputs c) i) as [x|] eqn:N; [|reflexivity].
      destruct (try_read x) as [|v|[|e]]; try reflexivity. cbn.
      now rewrite (update_same_contents _ _ _ _ N).
    - destruct (out_status c); reflexivity.
    - destruct (pending_inputs c) as [|? []]; reflexivity.
    - destruct (out_status c); reflexivity.
    - reflexivity.
    - destruct (nth_error (inputs c) i) as [x|] eqn:N; [|reflexivity].
      destruct (try_read x) as [|v|[|e]]; try reflexivity. cbn.
      now rewrite (update_same_contents _ _ _ _ N).
  Qed.

  Lemma step_contents c o : contents (fst (step c o)) = happens (contents c) o.
  Proof.
    destruct o as [l st|i v|i st|k| |]; cbn [step].
    - unfold contents, happens. destruct (owned c) eqn:Ow; [|cbn; now rewrite Ow].
      unfold add_input. destruct (error_reported c); cbn; rewrite map_app, Ow; reflexivity.
    - unfold contents, happens. destruct (nth_error (inputs c) i) as [y|] eqn:N.
      + destruct (closed y) eqn:C; cbn.
        * rewrite (change_same _ _ y _ N); [reflexivity|]. unfold write_to, content_of. cbn.
          now rewrite C.
        * rewrite (change_update _ _ y _ (fun s => write_to s v) N); [reflexivity|].
          unfold write_to, content_of. cbn. now rewrite C.
      + cbn. rewrite change_none; [reflexivity|].
        apply nth_error_None. rewrite map_length. now apply nth_error_None.
    - unfold contents, happens. destruct (nth_error (inputs c) i) as [y|] eqn:N.
      + destruct (closed y) eqn:C; cbn.
        * rewrite (change_same _ _ y _ N); [reflexivity|]. unfold close_with, content_of. cbn.
          now rewrite C.
        * rewrite (change_update _ _ y _ (fun s => close_with s st) N); [reflexivity|].
          unfold close_with, content_of. cbn. now rewrite C.
      + cbn. rewrite change_none; [reflexivity|].
        apply nth_error_None. rewrite map_length. now apply nth_error_None.
    - destruct (nth_error (threads c) k) as [p|]; [apply thread_contents|reflexivity].
    - unfold contents, happens. destruct (owned c) eqn:Ow; cbn; now rewrite ?Ow.
    - unfold contents, happens. destruct (threads c); [|reflexivity].
      destruct (owned c) eqn:Ow; cbn [orb fst]; [now rewrite Ow|].
      destruct (destroyed c || _); cbn [fst]; [now rewrite Ow|].
      destruct (pending_inputs c); cbn [fst]; [|now rewrite Ow].
      destruct (error_reported c); [reflexivity|].
      destruct (out_status c); cbn; now rewrite ?Ow.
  Qed.

  Lemma run_contents ops : forall c, contents (fst (run c ops)) = fold_left happens ops (contents c).
  Proof.
    induction ops as [|o ops IH]; intros c; cbn; [reflexivity|]. now rewrite IH, step_contents.
  Qed.

  Lemma the_streams ops : streams ops = map content_of (inputs (fst (run make_chain ops))).
  Proof. exact (f_equal fst (eq_sym (run_contents ops make_chain))). Qed.
  Lemma the_owner (ops : list (op value error)) : snd (happened ops) = owned (fst (run make_chain ops)).
  Proof. exact (f_equal snd (eq_sym (run_contents ops make_chain))). Qed.

  Lemma chained_old (pre l : list input) :
    Forall old pre ->
    chained (map content_of (pre ++ l))
    = (all_logs pre ++ fst (chained (map content_of l)), snd (chained (map content_of l))).
  Proof.
    induction 1 as [|x pre [C _] F IH]; cbn; [now destruct (chained _)|].
    rewrite C, IH. cbn. unfold all_logs; cbn. now rewrite <- app_assoc.
  Qed.

  Lemma chained_at x (l : list input) :
    closed x <> Some OK ->
    chained (map content_of (x :: l))
    = (log x, match closed x with Some (Err e) => Some e | _ => None end).
  Proof.
    intros H. cbn. unfold content_of. destruct (closed x) as [[|e]|]; [congruence| |]; reflexivity.
  Qed.

  Lemma chained_starts x (l : list input) :
    exists rest, fst (chained (map content_of (x :: l))) = log x ++ rest.
  Proof.
    cbn. unfold content_of at 1. destruct (closed x) as [[|e]|]; cbn; eauto.
    - exists []. now rewrite app_nil_r.
    - exists []. now rewrite app_nil_r.
  Qed.

  (** * What the output is *)
  Definition delivers c : Prop :=
    let l := map content_of (inputs c) in
    (exists rest, fst (chained l) = written c ++ rest) /\
    (forall e, out_status c = Some (Err e) -> chained l = (written c, Some e)) /\
    (out_status c = Some OK ->
       all_succeeded l /\ chained l = (written c, None) /\ owned c = false).

  Lemma inv_delivers c : inv c -> delivers c.
  Proof.
    intros V. unfold delivers.
    destruct V as [F P E T W O D | pre x post p I F G L P E D T A
                  | pre x post e I F G Su Cx Px P E T O W].
    - assert (X : chained (map content_of (inputs c)) = (written c, None)).
      { rewrite <- (app_nil_r (inputs c)), (chained_old _ [] F). cbn.
        now rewrite app_nil_r, W. }
      rewrite X. split; [exists []; cbn; now rewrite app_nil_r|].
      rewrite O. split; [destruct (destroyed c); discriminate|].
      destruct (destroyed c); [|discriminate]. intros _. repeat split; auto.
      unfold all_succeeded. rewrite Forall_map. revert F. apply Forall_impl.
      intros x [C _]. exact C.
    - rewrite I, (chained_old _ _ F). cbn [fst snd].
      destruct (chained_starts x post) as [rest Hr].
      assert (Pre : exists rest0, written c = all_logs pre ++ rest0 /\
                                  exists m, log x = rest0 ++ m).
      { destruct p as [[|i|i v| |st| |i]|]; cbn in A.
        - exists (reads x). split; [tauto|]. exists (skipn (position x) (log x)).
          symmetry. apply firstn_skipn.
        - exists (reads x). split; [tauto|]. exists (skipn (position x) (log x)).
          symmetry. apply firstn_skipn.
        - destruct A as (_ & _ & _ & q & _ & _ & A). exists (firstn q (log x)).
          split; [exact A|]. exists (skipn q (log x)). symmetry. apply firstn_skipn.
        - exists (log x). split; [tauto|]. exists []. now rewrite app_nil_r.
        - destruct A as (_ & e & A). exists (log x). split; [tauto|]. exists []. now rewrite app_nil_r.
        - destruct A as (_ & e & A). exists (log x). split; [tauto|]. exists []. now rewrite app_nil_r.
        - exists (reads x). split; [tauto|]. exists (skipn (position x) (log x)).
          symmetry. apply firstn_skipn.
        - exists (log x). split; [tauto|]. exists []. now rewrite app_nil_r. }
      split.
      + destruct Pre as (r0 & -> & m & Hm). exists (m ++ rest). rewrite Hr, Hm.
        now rewrite <- !app_assoc.
      + assert (X : out_status c = None \/
                    exists e, out_status c = Some (Err e) /\ closed x = Some (Err e) /\
                              written c = all_logs pre ++ log x).
        { destruct p as [[|i|i v| |st| |i]|]; cbn in A; try (left; tauto).
          - left. destruct A as (_ & e & A). tauto.
          - right. destruct A as (_ & e & A). exists e. tauto. }
        destruct X as [X|(e & X & C & W)].
        * rewrite X. split; intros; discriminate.
        * rewrite X. split; [|intros; discriminate]. intros e' H.
          assert (e' = e) by congruence. subst e'.
          rewrite (chained_at x post) by congruence. cbn. now rewrite C, W.
    - rewrite I, (chained_old _ _ F), (chained_at x post) by congruence. cbn [fst snd].
      rewrite Cx, O, W. split; [exists []; now rewrite app_nil_r|].
      split; [|discriminate]. intros e' H. now replace e' with e by congruence.
  Qed.

  (** * When no thread is left *)
  Definition settled c : Prop :=
    let l := map content_of (inputs c) in
    written c = fst (chained l) /\
    match snd (chained l) with
    | Some e => out_status c = Some (Err e)
    | None => destroyed c = false -> out_status c = None
    end /\
    (all_succeeded l -> owned c = false -> destroyed c = false ->
       snd (step c Destroy) = Done /\ out_status (fst (step c Destroy)) = Some OK /\
       written (fst (step c Destroy)) = written c).

  Lemma inv_settled c : inv c -> threads c = [] -> settled c.
  Proof.
    intros V T0. unfold settled.
    destruct V as [F P E T W O D | pre x post p I F G L P E D T A
                  | pre x post e I F G Su Cx Px P E T O W].
    - assert (X : chained (map content_of (inputs c)) = (written c, None)).
      { rewrite <- (app_nil_r (inputs c)), (chained_old _ [] F). cbn.
        now rewrite app_nil_r, W. }
      rewrite X. cbn [fst snd]. split; [reflexivity|]. split.
      + intros Dd. now rewrite Dd in O.
      + intros _ Ow Dd. cbn [step]. rewrite T, Ow, Dd, P, E.
        rewrite (no_subscriptions _ (old_unsubscribed _ F)). cbn [orb].
        rewrite Dd in O. rewrite O. cbn. auto.
    - rewrite T in T0. destruct p as [p|]; [discriminate|].
      destruct A as (Su & C & Px & O & W).
      rewrite I, (chained_old _ _ F), (chained_at x post) by congruence. cbn [fst snd].
      rewrite C, W, O. split; [reflexivity|]. split; [auto|].
      intros S. exfalso. unfold all_succeeded in S. rewrite map_app, Forall_app in S.
      destruct S as [_ S]. inversion S as [|? ? S1 _]. cbn in S1. congruence.
    - rewrite I, (chained_old _ _ F), (chained_at x post) by congruence. cbn [fst snd].
      rewrite Cx, W, O. split; [reflexivity|]. split; [auto|].
      intros S. exfalso. unfold all_succeeded in S. rewrite map_app, Forall_app in S.
      destruct S as [_ S]. inversion S as [|? ? S1 _]. cbn in S1. congruence.
  Qed.

  (** * Threads end *)
  Definition unread x : nat := length (log x) - position x.
  Definition weight c (p : pc) : nat :=
    match p with
    | Start => 4
    | Reading _ => 3
    | Writing _ _ => 4
    | Popping => 2
    | Closing _ => 2
    | Clearing => 1
    | Subscribing i =>
        match nth_error (inputs c) i with
        | Some x => match try_read x with Empty => 1 | _ => 5 end
        | None => 0
        end
    end.
  Definition work c : nat :=
    list_sum (map (weight c) (threads c)) + 2 * list_sum (map unread (inputs c))
    + 2 * length (pending_inputs c).

  Lemma list_sum_app' l m : list_sum (l ++ m) = list_sum l + list_sum m.
  Proof. apply list_sum_app. Qed.

  Lemma sum_cons a l : list_sum (a :: l) = a + list_sum l.
  Proof. reflexivity. Qed.
  Lemma sum_nil : list_sum [] = 0.
  Proof. reflexivity. Qed.
  Ltac sums := rewrite ?sum_cons, ?sum_nil.

  Lemma step_work c k :
    inv c -> k < length (threads c) -> work (fst (step c (Step k))) < work c.
  Proof.
    intros V Lk. cbn [step].
    destruct (nth_error (threads c) k) as [p|] eqn:Np;
      [|apply nth_error_None in Np; lia].
    destruct V as [F P E T W O D | pre x post p' I F G L P E D T A
                  | pre x post e I F G Su Cx Px P E T O W];
      [rewrite T in Lk; cbn in Lk; lia| |rewrite T in Lk; cbn in Lk; lia].
    destruct p' as [q|]; rewrite T in Np; [|destruct k; discriminate].
    destruct k as [|[|k]]; cbn in Np; try discriminate. injection Np as ->.
    unfold work. rewrite T.
    destruct p as [|i|i v| |st| |i]; cbn [thread_step]; destruct A as [Su A].
    - rewrite P. cbn [seq]. rewrite E, T. cbn [fst set_inputs threads inputs pending_inputs
        update map  weight]; sums. rewrite P; cbn [seq length]; lia.
    - destruct A as (-> & O & W). rewrite I, nth_middle.
      destruct (try_read x) as [|v|[|e]] eqn:R; rewrite T;
        cbn [fst set_inputs threads inputs pending_inputs
          update map  weight]; sums; rewrite ?nth_middle, ?R; try lia.
      apply try_read_item in R.
      assert (Lt : position x < length (log x)) by (apply nth_error_Some; congruence).
      rewrite update_middle, !map_app, !list_sum_app'. cbn [map ]; sums.
      unfold unread at 2 5. cbn [advance log position]. lia.
    - destruct A as (-> & O & _). rewrite O, T. cbn [fst threads inputs pending_inputs
          update map  weight]; sums. lia.
    - rewrite P. cbn [seq]. rewrite T. destruct post as [|y post]; cbn [length seq fst threads inputs pending_inputs
          update remove_nth map  weight]; sums; rewrite ?seq_length; lia.
    - destruct A as (e & -> & C & Px & O & W). rewrite O, T. cbn [fst threads inputs pending_inputs
          update map  weight]; sums. lia.
    - rewrite T. cbn [fst threads inputs pending_inputs
          remove_nth map  weight length]; sums. lia.
    - destruct A as (-> & O & W). rewrite I, nth_middle, T. cbn [map weight].
      rewrite I, nth_middle.
      destruct (try_read x) as [|v|[|e]] eqn:R;
        cbn [fst set_inputs threads inputs pending_inputs app
          remove_nth map  weight]; sums; rewrite ?I; try lia.
      rewrite update_middle, !map_app, !list_sum_app'. cbn [map ]; sums.
      unfold unread at 2 5. cbn [subscribe log position]. lia.
  Qed.

  Lemma schedule_bounded ks : forall c,
    inv c -> Forall (fun o => o = Done) (snd (run c (map (@Step _ _) ks))) -> length ks <= work c.
  Proof.
    induction ks as [|k ks IH]; intros c V H; cbn [length]; [lia|].
    cbn [map run fst snd] in H. inversion H as [|? ? H1 H2]; subst.
    assert (Lk : k < length (threads c)).
    { cbn [step] in H1. destruct (nth_error (threads c) k) eqn:N; [|discriminate].
      apply nth_error_Some. congruence. }
    pose proof (step_work c k V Lk). pose proof (IH _ (proj1 (step_inv c (Step k) V)) H2). lia.
  Qed.

  Lemma step_possible c k : inv c -> k < length (threads c) -> snd (step c (Step k)) = Done.
  Proof.
    intros V L. cbn [step]. destruct (nth_error (threads c) k) as [p|] eqn:N.
    - now apply step_thread_inv.
    - apply nth_error_None in N. lia.
  Qed.

  (** What is delivered stays. *)
  Lemma step_keeps c o :
    inv c ->
    (exists more, written (fst (step c o)) = written c ++ more) /\
    (forall st, out_status c = Some st ->
       out_status (fst (step c o)) = Some st /\ written (fst (step c o)) = written c).
  Proof.
    intros V.
    assert (X : written (fst (step c o)) = written c /\
                (forall st, out_status c = Some st -> out_status (fst (step c o)) = Some st)
                \/ (exists v, written (fst (step c o)) = written c ++ [v]) /\ out_status c = None).
    { destruct o as [l st|i v|i st|k| |]; cbn [step].
      - left. destruct (owned c); [|auto]. unfold add_input. destruct (error_reported c); auto.
      - left. destruct (nth_error (inputs c) i) as [y|]; [|auto]. destruct (closed y); auto.
      - left. destruct (nth_error (inputs c) i) as [y|]; [|auto]. destruct (closed y); auto.
      - destruct (nth_error (threads c) k) as [p|]; [|auto].
        destruct p as [|i|i v| |st| |i]; cbn [thread_step].
        + left. destruct (pending_inputs c); [auto|]. destruct (error_reported c); auto.
        + left. destruct (nth_error (inputs c) i) as [y|]; [|auto].
          destruct (try_read y) as [|v|[|e]]; auto.
        + destruct (out_status c) eqn:O; cbn; [left; rewrite O; auto|right]. split; [eauto|reflexivity].
        + left. destruct (pending_inputs c); auto.
        + left. destruct (out_status c) eqn:O; cbn; [rewrite O; auto|]. split; [reflexivity|]. discriminate.
        + left. auto.
        + left. destruct (nth_error (inputs c) i) as [y|]; [|auto].
          destruct (try_read y) as [|v|[|e]]; auto.
      - left. destruct (owned c); auto.
      - left. destruct (threads c); [|auto]. destruct (_ || _ || _); [auto|].
        destruct (pending_inputs c); [|auto]. destruct (error_reported c); [auto|].
        destruct (out_status c) eqn:O; cbn; [rewrite O; auto|]. split; [reflexivity|]. discriminate. }
    destruct X as [[W S]|[[v W] N]].
    - split; [exists []; now rewrite app_nil_r|]. intros st H. auto.
    - split; [eauto|]. intros st H. congruence.
  Qed.

  Lemma run_keeps ops : forall c,
    inv c ->
    (exists more, written (fst (run c ops)) = written c ++ more) /\
    (forall st, out_status c = Some st ->
       out_status (fst (run c ops)) = Some st /\ written (fst (run c ops)) = written c).
  Proof.
    induction ops as [|o ops IH]; intros c V; cbn [run fst].
    - split; [exists []; now rewrite app_nil_r|auto].
    - destruct (step_keeps c o V) as [[m1 W1] S1].
      destruct (IH _ (proj1 (step_inv c o V))) as [[m2 W2] S2]. split.
      + exists (m1 ++ m2). rewrite W2, W1. now rewrite app_assoc.
      + intros st H. destruct (S1 st H) as [A B]. destruct (S2 st A) as [A' B'].
        split; congruence.
  Qed.

  Lemma run_app ops1 ops2 : forall c,
    fst (run c (ops1 ++ ops2)) = fst (run (fst (run c ops1)) ops2).
  Proof. induction ops1 as [|o ops1 IH]; intros c; cbn; [reflexivity|]. apply IH. Qed.
End Proofs.
