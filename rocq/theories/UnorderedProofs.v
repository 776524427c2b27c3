(** Proofs about mapping in any order. *)
From Coq Require Import List Bool PeanoNat Lia Permutation.
From Verif Require Import ChainModel ChainProofs InterleaveProofs MapModel MapSpec MapProofs
  UnorderedModel UnorderedSpec.
Import ListNotations.
Local Open Scope nat_scope.

Lemma NoDup_app_snoc (A : Type) (l : list A) x : NoDup l -> ~ In x l -> NoDup (l ++ [x]).
Proof.
  intros H N. induction l as [|y l IH]; cbn.
  - constructor; [intros []|constructor].
  - inversion H; subst. constructor.
    + intros E. apply in_app_or in E. destruct E as [E|[E|[]]]; [auto|]. subst. apply N. cbn. auto.
    + apply IH; [assumption|]. intros E. apply N. cbn. auto.
Qed.

Section Proofs.
  Variables value result error : Type.
  Variable functor : nat -> value -> outcome result error.
  Variable orphaned : error.
  Notation status := (status error).
  Notation state := (ustate value result error).
  Notation op := (op value error).
  Notation task := (utask value result error).
  Notation step := (ustep functor orphaned).
  Notation run := (urun functor orphaned).
  Implicit Types s : state.

  Definition gives s k (r : outcome result error) : Prop :=
    exists x, nth_error (ulog s) k = Some x /\ functor k x = r.

  Definition is_counting (t : task) : bool := match t with UCounting => true | _ => false end.
  Definition counting (l : list task) : nat := length (filter is_counting l).

  Local Arguments counting : simpl never.

  Definition task_fine s (k : nat) (t : task) : Prop :=
    match t with
    | UQueued x => nth_error (ulog s) k = Some x
    | UCalled r => gives s k r
    | UWriting v => gives s k (Value v)
    | UCounting => In k (map fst (out (uwriter s)))
    | UFailing => out_closed (uwriter s) <> None \/ expired (uwriter s) = true
    | UStopping => failed s = true
    | UFinished => In k (map fst (out (uwriter s))) \/ failed s = true \/ udropped s = true
    end.

  Definition evidence (cs : list error) s (st : status) : Prop :=
    (exists e, In e cs /\ st = Err e) \/ (st = Err orphaned /\ udropped s = true)
    \/ (exists k e, gives s k (Error e) /\ st = Err e)
    \/ (exists e, uclosed s = Some (Err e) /\ st = Err e).

  Record inv (cs : list error) s : Prop := Inv {
    u_tasks : length (utasks s) = uread_count s;
    u_read : uread_count s <= length (ulog s);
    u_task : forall k t, nth_error (utasks s) k = Some t -> task_fine s k t;
    u_out : forall k v, In (k, v) (out (uwriter s)) ->
      gives s k (Value v)
      /\ (nth_error (utasks s) k = Some UCounting \/ nth_error (utasks s) k = Some UFinished);
    u_nodup : NoDup (map fst (out (uwriter s)));
    u_count : length (out (uwriter s)) = uwrite_count s + counting (utasks s);
    u_failed : failed s = true -> flag (uwriter s) = true \/ expired (uwriter s) = true;
    u_not_failed : failed s = false -> flag (uwriter s) = false;
    u_flag : flag (uwriter s) = false -> closer (uwriter s) = None /\ out_closed (uwriter s) = None;
    u_flagged : flag (uwriter s) = true -> expired (uwriter s) = false ->
      closer (uwriter s) <> None \/ out_closed (uwriter s) <> None;
    u_size : forall n, input_stream_size s = Some n ->
      n = uread_count s /\ n = length (ulog s) /\ uclosed s = Some OK /\ ureader s = Ended;
    u_closer : forall st, closer (uwriter s) = Some st -> evidence cs s st;
    u_closed : forall st, out_closed (uwriter s) = Some st ->
      evidence cs s st \/ (st = OK /\ input_stream_size s = Some (length (out (uwriter s))));
    u_once : out_closed (uwriter s) <> None -> closer (uwriter s) = None /\ flag (uwriter s) = true;
    u_cancelling : forall e, ucancelling s = Some e -> In e cs;
    u_cancelled : cs <> [] -> ucancelling s <> None \/ failed s = true;
    u_stop : ustop_reader s = true -> cs <> [] \/ failed s = true;
    u_reader : match ureader s with
      | AtPush st => uclosed s = Some st /\ uread_count s = length (ulog s)
      | Waiting => uclosed s = None /\ uread_count s = length (ulog s)
      | Ended => cs <> [] \/ failed s = true \/ udropped s = true
                 \/ input_stream_size s = Some (uread_count s)
      | _ => True
      end;
    u_destroyed : udestroyed s = true -> ureader s = Ended /\ failed s = true
  }.

  Lemma inv_start l st : inv [] (start_unordered l st).
  Proof.
    constructor; cbn; auto; try discriminate; try lia.
    - intros k t E. destruct k; discriminate.
    - constructor.
  Qed.

  Lemma gives_grow s x k r :
    gives s k r -> exists y, nth_error (ulog s ++ [x]) k = Some y /\ functor k y = r.
  Proof.
    intros (y & E & H). exists y. split; [|exact H].
    rewrite nth_error_app1; [exact E|]. apply nth_error_Some. congruence.
  Qed.

  Lemma env_write_inv cs s x : inv cs s -> inv cs (fst (step s (EnvWrite x))).
  Proof.
    intros V. cbn [ustep]. destruct (uclosed s) as [st|] eqn:C; [exact V|]. cbn [fst].
    assert (EV : forall st, evidence cs s st ->
      evidence cs (UState (ulog s ++ [x]) None (uread_count s) (woken (ureader s))
        (ustop_reader s) (utasks s) (failed s) (uwrite_count s) (input_stream_size s) (uwriter s)
        (ucancelling s) (udropped s) (udestroyed s)) st).
    { intros st [H|[H|[(k & e & H & ->)|(e & H & _)]]]; [left; auto|right; left; auto| |congruence].
      right. right. left. exists k, e. split; [apply gives_grow, H|reflexivity]. }
    constructor; cbn; try solve [apply V].
    - rewrite app_length. pose proof (u_read _ _ V). lia.
    - intros k t E. pose proof (u_task _ _ V k t E) as H. destruct t; cbn in *; auto.
      + rewrite nth_error_app1; [exact H|]. apply nth_error_Some. congruence.
      + apply gives_grow, H.
      + apply gives_grow, H.
    - intros k v E. destruct (u_out _ _ V k v E) as [H1 H2]. split; [apply gives_grow, H1|exact H2].
    - intros n E. destruct (u_size _ _ V n E) as (_ & _ & H & _). congruence.
    - intros st E. apply EV, (u_closer _ _ V), E.
    - intros st E. destruct (u_closed _ _ V st E); auto.
    - pose proof (u_reader _ _ V) as R. destruct (ureader s); cbn; auto.
      destruct R as [R _]. congruence.
    - intros D. destruct (u_destroyed _ _ V D) as [-> F]. auto.
  Qed.

  Lemma env_close_inv cs s st : inv cs s -> inv cs (fst (step s (EnvClose st))).
  Proof.
    intros V. cbn [ustep]. destruct (uclosed s) as [st'|] eqn:C; [exact V|]. cbn [fst].
    assert (EV : forall st', evidence cs s st' ->
      evidence cs (UState (ulog s) (Some st) (uread_count s) (woken (ureader s))
        (ustop_reader s) (utasks s) (failed s) (uwrite_count s) (input_stream_size s) (uwriter s)
        (ucancelling s) (udropped s) (udestroyed s)) st').
    { intros st' [H|[H|[H|(e & H & _)]]]; [left; auto|right; left; auto|right; right; left; auto|congruence]. }
    constructor; cbn; try solve [apply V].
    - intros n E. destruct (u_size _ _ V n E) as (_ & _ & H & _). congruence.
    - intros st' E. apply EV, (u_closer _ _ V), E.
    - intros st' E. destruct (u_closed _ _ V st' E); auto.
    - pose proof (u_reader _ _ V) as R. destruct (ureader s); cbn; auto.
      destruct R as [R _]. congruence.
    - intros D. destruct (u_destroyed _ _ V D) as [-> F]. auto.
  Qed.

  Lemma finish_close_inv cs s : inv cs s -> inv cs (fst (step s FinishClose)).
  Proof.
    intros V. cbn [ustep]. destruct (closer (uwriter s)) as [st|] eqn:C; [|exact V]. cbn [fst].
    assert (F : flag (uwriter s) = true).
    { destruct (flag (uwriter s)) eqn:F; [reflexivity|]. destruct (u_flag _ _ V F). congruence. }
    constructor; cbn; try solve [apply V]; auto.
    - intros k t E. pose proof (u_task _ _ V k t E) as H. destruct t; cbn in *; auto.
      destruct (expired (uwriter s)); auto. left. discriminate.
    - rewrite F. discriminate.
    - intros _ X. rewrite X. right. discriminate.
    - intros st' H. discriminate.
    - intros st' H. destruct (expired (uwriter s)).
      + exact (u_closed _ _ V st' H).
      + left. apply (u_closer _ _ V). congruence.
  Qed.

  Lemma evidence_more cs e s st : evidence cs s st -> evidence (cs ++ [e]) s st.
  Proof.
    intros [(e' & H & ->)|H]; [|right; exact H]. left. exists e'. split; [apply in_or_app; auto|auto].
  Qed.
  Lemma inv_more cs e s :
    inv cs s -> (ucancelling s <> None \/ failed s = true) -> inv (cs ++ [e]) s.
  Proof.
    intros V H. assert (N : cs ++ [e] <> []) by (destruct cs; discriminate).
    constructor; try solve [apply V]; auto.
    - intros st E. apply evidence_more, (u_closer _ _ V), E.
    - intros st E. destruct (u_closed _ _ V st E); auto using evidence_more.
    - intros e' E. apply in_or_app. left. apply (u_cancelling _ _ V), E.
    - pose proof (u_reader _ _ V) as R. destruct (ureader s); auto.
  Qed.

  Lemma cancel_inv cs s e : inv cs s -> inv (cs ++ [e]) (fst (step s (Cancel e))).
  Proof.
    intros V. assert (N : cs ++ [e] <> []) by (destruct cs; discriminate).
    cbn [ustep]. destruct (ucancelling s) as [st|] eqn:C; [|destruct (udestroyed s) eqn:D]; cbn [fst].
    - apply inv_more; [exact V|]. left. congruence.
    - apply inv_more; [exact V|]. right. exact (proj2 (u_destroyed _ _ V D)).
    - constructor; cbn; try solve [apply V]; auto.
      + intros st E. apply evidence_more. exact (u_closer _ _ V _ E).
      + intros st E. destruct (u_closed _ _ V st E); auto. left. apply evidence_more. assumption.
      + intros e' [= <-]. apply in_or_app. cbn. auto.
      + intros _. left. discriminate.
      + pose proof (u_reader _ _ V) as R. destruct (ureader s); auto.
      + congruence.
  Qed.

  Lemma fail_with_inv cs s e :
    inv cs s -> evidence cs s (Err e) ->
    inv cs (fst (fail_with s e)) /\ failed (fst (fail_with s e)) = true
    /\ snd (fail_with s e) = Done
    /\ utasks (fst (fail_with s e)) = utasks s /\ ureader (fst (fail_with s e)) = ureader s.
  Proof.
    intros V EV. unfold fail_with. destruct (failed s) eqn:F; [cbn; auto|].
    pose proof (u_not_failed _ _ V F) as FL. rewrite FL. cbn [fst snd].
    split; [|cbn; auto]. unfold try_close. rewrite FL.
    destruct (u_flag _ _ V FL) as [F1 F2].
    constructor; cbn; try solve [apply V]; auto; try discriminate.
    - intros k t E. pose proof (u_task _ _ V k t E) as H. destruct t; cbn in *; auto.
    - intros _ _. left. discriminate.
    - intros st [= <-]. exact EV.
    - intros H. congruence.
    - pose proof (u_reader _ _ V) as R. destruct (ureader s); auto.
    - intros D. destruct (u_destroyed _ _ V D). auto.
  Qed.

  Lemma finish_cancel_inv cs s :
    inv cs s -> inv cs (fst (step s FinishCancel)) /\ snd (step s FinishCancel) <> Fatal
                /\ snd (step s FinishCancel) <> CheckFailed.
  Proof.
    intros V. cbn [ustep]. destruct (ucancelling s) as [e|] eqn:C; [|split; [exact V|split; discriminate]].
    assert (EV : evidence cs s (Err e)).
    { left. exists e. split; [exact (u_cancelling _ _ V e C)|reflexivity]. }
    destruct (fail_with_inv _ _ _ V EV) as (V' & F & O & _).
    cbn [fst snd]. rewrite O. split; [|split; discriminate].
    assert (S' : fst (fail_with s e) = s \/ fst (fail_with s e)
      = with_failed s true (try_close (uwriter s) (Err e))).
    { unfold fail_with. destruct (failed s); [auto|]. destruct (flag (uwriter s)); auto. }
    destruct S' as [S'|S']; rewrite S' in *.
    - constructor; cbn; try solve [apply V']; auto. discriminate.
    - constructor; cbn; try solve [apply V']; auto. discriminate.
  Qed.

  Lemma expire_inv cs s : inv cs s -> inv cs (fst (step s Expire)).
  Proof.
    intros V. cbn [ustep fst].
    constructor; cbn; try solve [apply V]; auto; try discriminate.
    intros k t E. pose proof (u_task _ _ V k t E) as H. destruct t; cbn in *; auto.
  Qed.

  Lemma dropped_evidence cs s st (s' : state) :
    evidence cs s st -> ulog s' = ulog s -> uclosed s' = uclosed s -> udropped s' = true ->
    evidence cs s' st.
  Proof.
    intros [H|[[H1 H2]|[H|H]]] E1 E2 E3; unfold evidence, gives; rewrite ?E1, ?E2; auto.
  Qed.

  Lemma drop_reader_inv cs s : inv cs s -> inv cs (fst (step s DropReader)).
  Proof.
    intros V. cbn [ustep]. destruct (ureader s) eqn:R; try exact V. cbn [fst].
    constructor; cbn; try solve [apply V]; auto.
    - intros k t E. pose proof (u_task _ _ V k t E) as H. destruct t; cbn in *; auto.
    - intros n E. destruct (u_size _ _ V n E) as (_ & _ & _ & H). congruence.
    - intros st E. eapply dropped_evidence; [exact (u_closer _ _ V _ E)|reflexivity..].
    - intros st E. destruct (u_closed _ _ V st E) as [H|H]; auto.
      left. eapply dropped_evidence; [exact H|reflexivity..].
    - intros D. destruct (u_destroyed _ _ V D). congruence.
  Qed.

  (** ** The tasks *)

  Lemma counting_update (l : list task) k t t' :
    nth_error l k = Some t ->
    counting (update l k t') + (if is_counting t then 1 else 0)
    = counting l + (if is_counting t' then 1 else 0).
  Proof.
    unfold counting. revert k. induction l as [|u l IH]; intros [|k] E; try discriminate; cbn in E; cbn [update filter].
    - injection E as ->. destruct (is_counting t), (is_counting t'); cbn [length]; lia.
    - specialize (IH k E). destruct (is_counting u); cbn [length]; lia.
  Qed.

  Definition written (t : task) : bool := match t with UCounting | UFinished => true | _ => false end.

  Lemma set_task_inv cs s k t t' :
    inv cs s -> nth_error (utasks s) k = Some t -> is_counting t = is_counting t' ->
    (written t = true -> written t' = true) -> task_fine s k t' -> inv cs (at_utask s k t').
  Proof.
    intros V T CN P OK.
    constructor; cbn; try solve [apply V]; auto.
    - rewrite update_length. exact (u_tasks _ _ V).
    - intros i u E. destruct (Nat.eq_dec k i) as [<-|Q].
      + rewrite (nth_update_same _ _ _ _ _ T) in E. injection E as <-. exact OK.
      + rewrite nth_update_other in E by exact Q. exact (u_task _ _ V i u E).
    - intros i v E. destruct (u_out _ _ V i v E) as [H1 H2]. split; [exact H1|].
      destruct (Nat.eq_dec k i) as [<-|Q].
      + rewrite (nth_update_same _ _ _ _ _ T).
        assert (written t' = true) as W.
        { apply P. destruct H2 as [H2|H2]; rewrite T in H2; injection H2 as ->; reflexivity. }
        destruct t'; try discriminate W; auto.
      + rewrite nth_update_other by exact Q. exact H2.
    - rewrite (u_count _ _ V). pose proof (counting_update _ _ _ t' T) as H. rewrite CN in H. lia.
  Qed.

  Lemma drop_task_inv cs s k : inv cs s -> inv cs (fst (step s (DropTask k))).
  Proof.
    intros V. cbn [ustep]. destruct (nth_error (utasks s) k) as [[x| | | | | |]|] eqn:T; try exact V.
    cbn [fst].
    assert (V' : inv cs (UState (ulog s) (uclosed s) (uread_count s) (ureader s) (ustop_reader s)
      (utasks s) (failed s) (uwrite_count s) (input_stream_size s) (uwriter s) (ucancelling s) true
      (udestroyed s))).
    { constructor; cbn; try solve [apply V]; auto.
      - intros i t E. pose proof (u_task _ _ V i t E) as H. destruct t; cbn in *; auto.
      - intros st E. eapply dropped_evidence; [exact (u_closer _ _ V _ E)|reflexivity..].
      - intros st E. destruct (u_closed _ _ V st E) as [H|H]; auto.
        left. eapply dropped_evidence; [exact H|reflexivity..].
      - pose proof (u_reader _ _ V) as R. destruct (ureader s); auto. }
    apply (set_task_inv _ _ k _ UFinished V' T); cbn; auto.
  Qed.

  Lemma written_once cs s k t :
    inv cs s -> nth_error (utasks s) k = Some t -> written t = false ->
    ~ In k (map fst (out (uwriter s))).
  Proof.
    intros V T W H. apply in_map_iff in H. destruct H as ([k' v] & E & H). cbn in E. subst k'.
    destruct (u_out _ _ V k v H) as [_ [H1|H1]]; rewrite T in H1; injection H1 as ->; discriminate.
  Qed.

  Lemma task_inv cs s k :
    inv cs s -> inv cs (fst (step s (StepTask k))) /\ snd (step s (StepTask k)) <> Fatal
                /\ snd (step s (StepTask k)) <> CheckFailed.
  Proof.
    intros V. cbn [ustep]. destruct (nth_error (utasks s) k) as [t|] eqn:T;
      [|split; [exact V|split; discriminate]].
    pose proof (u_task _ _ V k t T) as OK.
    destruct t as [x|[v|e]|v| | | |]; cbn [utask_step task_fine] in *.
    - split; [|split; discriminate]. cbn [fst].
      apply (set_task_inv _ _ _ _ _ V T); destruct (failed s) eqn:F; cbn; auto; try discriminate.
      exists x. auto.
    - split; [|split; discriminate]. cbn [fst].
      apply (set_task_inv _ _ _ _ _ V T); destruct (failed s) eqn:F; cbn; auto; discriminate.
    - cbn [upush_status].
      assert (EV : evidence cs s (Err e)) by (right; right; left; exists k, e; auto).
      destruct (fail_with_inv _ _ _ V EV) as (V' & F & O & E & _).
      cbn [fst snd]. rewrite O. split; [|split; discriminate].
      rewrite <- E in T. apply (set_task_inv _ _ _ _ _ V' T); cbn; auto.
    - unfold try_write. destruct (expired (uwriter s)) eqn:X.
      { split; [|split; discriminate]. apply (set_task_inv _ _ _ _ _ V T); cbn; auto. }
      destruct (out_closed (uwriter s)) eqn:C.
      { split; [|split; discriminate]. apply (set_task_inv _ _ _ _ _ V T); cbn; auto.
        left. congruence. }
      cbn [fst snd]. split; [|split; discriminate].
      pose proof (written_once _ _ _ _ V T eq_refl) as NI.
      constructor; cbn; try solve [apply V]; auto.
      + rewrite update_length. exact (u_tasks _ _ V).
      + intros i u E. destruct (Nat.eq_dec k i) as [<-|Q].
        * rewrite (nth_update_same _ _ _ _ _ T) in E. injection E as <-. cbn. rewrite map_app. apply in_or_app. cbn. auto.
        * rewrite nth_update_other in E by exact Q. pose proof (u_task _ _ V i u E) as H.
          destruct u; cbn in *; rewrite ?map_app; auto.
          -- apply in_or_app. auto.
          -- destruct H as [H|H]; congruence.
          -- destruct H as [H|H]; [left; apply in_or_app; auto|auto].
      + intros i w E. apply in_app_or in E. destruct E as [E|[[= <- <-]|[]]].
        * destruct (u_out _ _ V i w E) as [H1 H2]. split; [exact H1|].
          destruct (Nat.eq_dec k i) as [<-|Q].
          -- rewrite (nth_update_same _ _ _ _ _ T). auto.
          -- rewrite nth_update_other by exact Q. exact H2.
        * split; [exact OK|]. rewrite (nth_update_same _ _ _ _ _ T). auto.
      + rewrite map_app. cbn. apply NoDup_app_snoc; [apply V|exact NI].
      + rewrite app_length, (u_count _ _ V). cbn [length].
        pose proof (counting_update _ _ _ UCounting T) as H. cbn in H. lia.
      + intros F. destruct (u_failed _ _ V F); [auto|congruence].
      + intros F. destruct (u_flag _ _ V F). auto.
      + intros F X'. destruct (u_flagged _ _ V F X); [auto|congruence].
      + congruence.
      + congruence.
    - split; [|split; discriminate]. cbn [fst].
      constructor; cbn; try solve [apply V]; auto.
      + rewrite update_length. exact (u_tasks _ _ V).
      + intros i u E. destruct (Nat.eq_dec k i) as [<-|Q].
        * rewrite (nth_update_same _ _ _ _ _ T) in E. injection E as <-. cbn. auto.
        * rewrite nth_update_other in E by exact Q. exact (u_task _ _ V i u E).
      + intros i v E. destruct (u_out _ _ V i v E) as [H1 H2]. split; [exact H1|].
        destruct (Nat.eq_dec k i) as [<-|Q].
        * rewrite (nth_update_same _ _ _ _ _ T). auto.
        * rewrite nth_update_other by exact Q. exact H2.
      + rewrite (u_count _ _ V). pose proof (counting_update _ _ _ UFinished T) as H. cbn in H. lia.
    - split; [|split; discriminate]. cbn [fst].
      assert (V' : inv cs (with_failed s true (uwriter s))).
      { constructor; cbn; try solve [apply V]; auto; try discriminate.
        - intros i t E. pose proof (u_task _ _ V i t E) as H. destruct t; cbn in *; auto.
        - intros _. destruct OK as [H|H]; [|auto]. left. exact (proj2 (u_once _ _ V H)).
        - pose proof (u_reader _ _ V) as R. destruct (ureader s); auto.
        - intros D. destruct (u_destroyed _ _ V D). auto. }
      apply (set_task_inv _ _ k UFailing UStopping V' T); cbn; auto.
    - split; [|split; discriminate]. cbn [fst].
      assert (V' : inv cs (ustopped s)).
      { constructor; cbn; try solve [apply V]; auto. }
      apply (set_task_inv _ _ k UStopping UFinished V' T); cbn; auto.
    - split; [exact V|split; discriminate].
  Qed.

  (** ** The reader *)

  Lemma read_item s x :
    utry_read s = Item x -> nth_error (ulog s) (uread_count s) = Some x.
  Proof.
    unfold utry_read. destruct (nth_error (ulog s) (uread_count s)); [congruence|].
    destruct (uclosed s); discriminate.
  Qed.
  Lemma read_closed s st :
    utry_read s = Closed st -> uclosed s = Some st /\ length (ulog s) <= uread_count s.
  Proof.
    unfold utry_read. destruct (nth_error (ulog s) (uread_count s)) eqn:E; [discriminate|].
    apply nth_error_None in E. destruct (uclosed s); intros; [|discriminate]. split; [congruence|lia].
  Qed.
  Lemma read_empty s :
    utry_read s = Empty -> uclosed s = None /\ length (ulog s) <= uread_count s.
  Proof.
    unfold utry_read. destruct (nth_error (ulog s) (uread_count s)) eqn:E; [discriminate|].
    apply nth_error_None in E. destruct (uclosed s); intros; [discriminate|]. split; [congruence|lia].
  Qed.

  Lemma move_inv cs s p :
    inv cs s -> ureader s <> Ended ->
    match p with
    | AtPush st => uclosed s = Some st /\ uread_count s = length (ulog s)
    | Waiting => uclosed s = None /\ uread_count s = length (ulog s)
    | Ended => cs <> [] \/ failed s = true \/ udropped s = true
               \/ input_stream_size s = Some (uread_count s)
    | _ => True
    end -> inv cs (at_ureader s p).
  Proof.
    intros V R P. constructor; cbn; try solve [apply V]; auto.
    - intros n E. destruct (u_size _ _ V n E) as (_ & _ & _ & H). contradiction.
    - intros D. destruct (u_destroyed _ _ V D). contradiction.
  Qed.

  Lemma stop_evidence cs s :
    inv cs s -> ustop_reader s = true ->
    cs <> [] \/ failed s = true \/ udropped s = true \/ input_stream_size s = Some (uread_count s).
  Proof. intros V H. destruct (u_stop _ _ V H); auto. Qed.

  Lemma reader_inv cs s :
    inv cs s -> inv cs (fst (step s StepReader)) /\ snd (step s StepReader) <> Fatal
                /\ snd (step s StepReader) <> CheckFailed.
  Proof.
    intros V. cbn [ustep]. unfold ureader_step.
    destruct (ureader s) as [| |st| | | | |] eqn:R; cbn [fst snd];
      try (split; [exact V|split; discriminate]).
    - split; [|split; discriminate].
      apply move_inv; [exact V|congruence|]. destruct (ustop_reader s) eqn:S; [|exact I].
      exact (stop_evidence _ _ V S).
    - destruct (utry_read s) as [|x|st] eqn:T; cbn [fst snd]; (split; [|split; discriminate]).
      + apply move_inv; [exact V|congruence|exact I].
      + apply read_item in T.
        assert (NP : forall k, nth_error (utasks s ++ [UQueued x]) k = nth_error (utasks s) k
                               \/ (k = uread_count s
                                   /\ nth_error (utasks s ++ [UQueued x]) k = Some (UQueued x))
                               \/ (nth_error (utasks s ++ [UQueued x]) k = None)).
        { intros k. rewrite <- (u_tasks _ _ V). destruct (Nat.lt_total k (length (utasks s))) as [L|[L|L]].
          - left. now rewrite nth_error_app1.
          - right. left. subst k. split; [auto|]. apply nth_middle.
          - right. right. apply nth_error_None. rewrite app_length. cbn. lia. }
        constructor; cbn; try solve [apply V]; auto.
        * rewrite app_length, (u_tasks _ _ V). cbn. lia.
        * assert (uread_count s < length (ulog s)) by (apply nth_error_Some; congruence). lia.
        * intros k t E. destruct (NP k) as [H|[(-> & H)|H]]; rewrite H in E; try discriminate.
          -- exact (u_task _ _ V k t E).
          -- injection E as <-. exact T.
        * intros k v E. destruct (u_out _ _ V k v E) as [H1 H2]. split; [exact H1|].
          assert (k < length (utasks s)) by (apply nth_error_Some; destruct H2 as [H2|H2]; rewrite H2; discriminate).
          rewrite nth_error_app1 by assumption. exact H2.
        * rewrite (u_count _ _ V). unfold counting. rewrite filter_app. cbn. rewrite app_nil_r. reflexivity.
        * intros n E. destruct (u_size _ _ V n E) as (_ & _ & _ & H). congruence.
        * intros D. destruct (u_destroyed _ _ V D). congruence.
      + destruct (read_closed _ _ T) as [C L]. apply move_inv; [exact V|congruence|].
        split; [exact C|]. pose proof (u_read _ _ V). lia.
    - pose proof (u_reader _ _ V) as H. rewrite R in H. destruct H as [C L].
      destruct st as [|e]; cbn [upush_status].
      + destruct (input_stream_size s) as [n|] eqn:SZ.
        { destruct (u_size _ _ V n SZ) as (_ & _ & _ & H). congruence. }
        cbn [fst snd]. split; [|split; discriminate].
        constructor; cbn; try solve [apply V]; auto.
        * intros n [= <-]. auto.
        * intros st E. destruct (u_closed _ _ V st E) as [H|[_ H]]; [auto|congruence].
        * intros D. destruct (u_destroyed _ _ V D). congruence.
      + assert (EV : evidence cs s (Err e)) by (right; right; right; exists e; auto).
        destruct (fail_with_inv _ _ _ V EV) as (V' & F & O & E & R').
        cbn [fst snd]. rewrite O. split; [|split; discriminate].
        apply move_inv; [exact V'|congruence|auto].
    - destruct (utry_read s) eqn:T; cbn [fst snd]; (split; [|split; discriminate]);
        apply move_inv; try exact V; try congruence; try exact I.
      destruct (read_empty _ T) as [C L]. split; [exact C|]. pose proof (u_read _ _ V). lia.
    - split; [|split; discriminate].
      apply move_inv; [exact V|congruence|]. destruct (ustop_reader s) eqn:S; [|exact I].
      exact (stop_evidence _ _ V S).
    - split; [|split; discriminate]. apply move_inv; [exact V|congruence|exact I].
  Qed.

  (** ** The end *)

  Lemma counting_finished (l : list task) : Forall (fun t => t = UFinished) l -> counting l = 0.
  Proof. induction 1 as [|t l -> H IH]; [reflexivity|exact IH]. Qed.

  Lemma offsets_bounded cs s k :
    inv cs s -> In k (map fst (out (uwriter s))) -> k < uread_count s.
  Proof.
    intros V H. apply in_map_iff in H. destruct H as ([k' v] & E & H). cbn in E. subst k'.
    destruct (u_out _ _ V k v H) as [_ H1]. rewrite <- (u_tasks _ _ V). apply nth_error_Some.
    destruct H1 as [H1|H1]; rewrite H1; discriminate.
  Qed.

  Lemma all_written cs s :
    inv cs s -> Forall (fun t => t = UFinished) (utasks s) -> failed s = false -> udropped s = false ->
    length (out (uwriter s)) = uread_count s.
  Proof.
    intros V A F D. rewrite <- (map_length fst). apply Nat.le_antisymm.
    - rewrite <- (seq_length (uread_count s) 0). apply NoDup_incl_length; [apply V|].
      intros k H. apply in_seq. pose proof (offsets_bounded _ _ _ V H). lia.
    - rewrite <- (seq_length (uread_count s) 0) at 1. apply NoDup_incl_length; [apply seq_NoDup|].
      intros k H. apply in_seq in H. rewrite <- (u_tasks _ _ V) in H.
      destruct (nth_error (utasks s) k) as [t|] eqn:T; [|apply nth_error_None in T; lia].
      assert (t = UFinished) as -> by (rewrite Forall_forall in A; apply A; eapply nth_error_In; eauto).
      destruct (u_task _ _ V k _ T) as [H1|[H1|H1]]; [exact H1|congruence|congruence].
  Qed.

  Lemma forallb_finished (l : list task) :
    forallb u_finished l = true -> Forall (fun t => t = UFinished) l.
  Proof.
    intros H. rewrite forallb_forall in H. apply Forall_forall. intros t E. specialize (H t E).
    destruct t; try discriminate. reflexivity.
  Qed.

  Lemma destroy_inv cs s :
    inv cs s -> inv cs (fst (step s Destroy)) /\ snd (step s Destroy) <> Fatal
                /\ snd (step s Destroy) <> CheckFailed.
  Proof.
    intros V. cbn [ustep].
    destruct (ureader s) eqn:R; try (split; [exact V|split; discriminate]).
    destruct (ucancelling s) eqn:C; [split; [exact V|split; discriminate]|].
    destruct (closer (uwriter s)) eqn:CL; [split; [exact V|split; discriminate]|].
    destruct (udestroyed s) eqn:DS; cbn [orb]; [split; [exact V|split; discriminate]|].
    destruct (forallb u_finished (utasks s)) eqn:A; cbn [negb]; [|split; [exact V|split; discriminate]].
    apply forallb_finished in A. unfold destroy_sink.
    destruct (negb (failed s) && match input_stream_size s with
      Some n => uwrite_count s =? n | None => false end) eqn:B.
    - apply andb_prop in B. destruct B as [B1 B2]. apply negb_true_iff in B1.
      destruct (input_stream_size s) as [n|] eqn:SZ; [|discriminate]. apply Nat.eqb_eq in B2.
      pose proof (u_not_failed _ _ V B1) as FL. rewrite FL. destruct (u_flag _ _ V FL) as [F1 F2].
      unfold try_close. rewrite FL. cbn [fst snd finish_close flag]. split; [|split; discriminate].
      pose proof (u_count _ _ V) as N. rewrite (counting_finished _ A) in N.
      constructor; cbn; try solve [apply V]; auto; try discriminate.
      + intros k t E. pose proof (u_task _ _ V k t E) as H. destruct t; cbn in *; auto.
        destruct H as [H|H]; [congruence|auto].
      + intros _ X. rewrite X. right. discriminate.
      + intros m E. injection E as <-.
        destruct (u_size _ _ V n SZ) as (H1 & H2 & H3 & H4). auto.
      + intros st H. destruct (expired (uwriter s)); [congruence|]. right.
        split; [congruence|]. f_equal. lia.
      + rewrite R. auto.
    - cbn [fst snd]. destruct (flag (uwriter s)) eqn:FL; cbn [fst snd].
      + split; [|split; discriminate].
        constructor; cbn; try solve [apply V]; auto; try discriminate.
        * intros k t E. pose proof (u_task _ _ V k t E) as H. destruct t; cbn in *; auto.
        * rewrite R. auto.
      + destruct (u_flag _ _ V FL) as [F1 F2].
        unfold try_close. rewrite FL. cbn [fst snd finish_close flag]. split; [|split; discriminate].
        constructor; cbn; try solve [apply V]; auto; try discriminate.
        * intros k t E. pose proof (u_task _ _ V k t E) as H. destruct t; cbn in *; auto.
          destruct H as [H|H]; [congruence|auto].
        * intros _ X. rewrite X. right. discriminate.
        * intros st H. destruct (expired (uwriter s)) eqn:X; [congruence|].
          left. right. left. split; [congruence|]. cbn.
          destruct (udropped s) eqn:D; [reflexivity|]. exfalso.
          destruct (failed s) eqn:F; [destruct (u_failed _ _ V F); congruence|].
          assert (cs = []) as ->.
          { destruct cs as [|c cs]; [reflexivity|]. destruct (u_cancelled _ _ V); congruence. }
          pose proof (u_reader _ _ V) as H1. rewrite R in H1.
          destruct H1 as [H1|[H1|[H1|H1]]]; try congruence.
          rewrite H1 in B. cbn in B. apply Nat.eqb_neq in B.
          pose proof (all_written _ _ V A F D) as N. rewrite (u_count _ _ V), (counting_finished _ A) in N. lia.
        * rewrite R. auto.
  Qed.

  Lemma step_inv cs s (o : op) :
    inv cs s -> inv (cs ++ cancels _ _ [o]) (fst (step s o))
                /\ snd (step s o) <> Fatal /\ snd (step s o) <> CheckFailed.
  Proof.
    intros V. destruct o; cbn [cancels]; rewrite ?app_nil_r.
    - split; [apply env_write_inv, V|]. cbn. destruct (uclosed s); split; discriminate.
    - split; [apply env_close_inv, V|]. cbn. destruct (uclosed s); split; discriminate.
    - apply reader_inv, V.
    - apply task_inv, V.
    - split; [apply drop_task_inv, V|]. cbn. destruct (nth_error (utasks s) k) as [[]|]; split; discriminate.
    - split; [apply drop_reader_inv, V|]. cbn. destruct (ureader s); split; discriminate.
    - split; [apply finish_close_inv, V|]. cbn. destruct (closer (uwriter s)); split; discriminate.
    - split; [apply cancel_inv, V|]. cbn. destruct (ucancelling s); [split; discriminate|].
      destruct (udestroyed s); split; discriminate.
    - apply finish_cancel_inv, V.
    - split; [apply expire_inv, V|]. cbn. split; discriminate.
    - apply destroy_inv, V.
  Qed.

  Lemma run_inv cs s ops :
    inv cs s -> inv (cs ++ cancels _ _ ops) (fst (run s ops))
                /\ Forall (fun o => o <> Fatal /\ o <> CheckFailed) (snd (run s ops)).
  Proof.
    revert cs s. induction ops as [|o ops IH]; intros cs s V; cbn [urun].
    - cbn. rewrite app_nil_r. auto.
    - destruct (step_inv cs s o V) as [V' H]. destruct (IH _ _ V') as [V'' H'].
      replace (cancels _ _ (o :: ops)) with (cancels _ _ [o] ++ cancels _ _ ops) by (destruct o; reflexivity).
      rewrite app_assoc. cbn [fst snd]. auto.
  Qed.

  Lemma reachable l st ops : inv (cancels _ _ ops) (fst (run (start_unordered l st) ops)).
  Proof. apply (run_inv [] _ ops), inv_start. Qed.

  Lemma run_app ops more s : fst (run s (ops ++ more)) = fst (run (fst (run s ops)) more).
  Proof. revert s. induction ops as [|o ops IH]; intros s; cbn [app urun fst]; [reflexivity|apply IH]. Qed.

  Lemma never_crashes l st ops :
    Forall (fun o => o <> Fatal /\ o <> CheckFailed) (snd (run (start_unordered l st) ops)).
  Proof. apply (run_inv [] _ ops), inv_start. Qed.

  (** ** What happened outside *)

  Lemma fail_with_input s e :
    ulog (fst (fail_with s e)) = ulog s /\ uclosed (fst (fail_with s e)) = uclosed s
    /\ udropped (fst (fail_with s e)) = udropped s
    /\ expired (uwriter (fst (fail_with s e))) = expired (uwriter s).
  Proof.
    unfold fail_with. destruct (failed s); [auto|]. destruct (flag (uwriter s)) eqn:F; [auto|].
    cbn. unfold try_close. rewrite F. auto.
  Qed.

  Lemma step_input s o :
    (ulog (fst (step s o)), uclosed (fst (step s o))) = input_change (ulog s, uclosed s) o.
  Proof.
    unfold input_change. cbn [fst snd].
    destruct o; cbn [ustep];
      try (destruct (uclosed s) eqn:C; cbn; rewrite ?C; reflexivity).
    - unfold ureader_step. destruct (ureader s) as [| |[|e]| | | | |]; try reflexivity.
      + destruct (utry_read s); reflexivity.
      + cbn. destruct (input_stream_size s); reflexivity.
      + cbn. destruct (fail_with_input s e) as (-> & -> & _). reflexivity.
      + destruct (utry_read s); reflexivity.
    - destruct (nth_error (utasks s) k) as [[|[]| | | | |]|]; try reflexivity; cbn [utask_step].
      + cbn. destruct (fail_with_input s e) as (-> & -> & _). reflexivity.
      + destruct (try_write (uwriter s) (k, v)); reflexivity.
    - destruct (nth_error (utasks s) k) as [[]|]; reflexivity.
    - destruct (ureader s); reflexivity.
    - destruct (closer (uwriter s)); reflexivity.
    - destruct (ucancelling s); [reflexivity|]. destruct (udestroyed s); reflexivity.
    - destruct (ucancelling s); reflexivity.
    - destruct (ureader s); try reflexivity. destruct (ucancelling s); try reflexivity.
      destruct (closer (uwriter s)); try reflexivity.
      destruct (udestroyed s || negb (forallb u_finished (utasks s))); reflexivity.
  Qed.

  Lemma run_input s ops :
    (ulog (fst (run s ops)), uclosed (fst (run s ops))) = input_after (ulog s, uclosed s) ops.
  Proof.
    unfold input_after. revert s. induction ops as [|o ops IH]; intros s; cbn [urun fold_left fst].
    - reflexivity.
    - rewrite IH, step_input. reflexivity.
  Qed.

  Lemma step_dropped s o :
    udropped (fst (step s o)) = true -> udropped s = true \/ drops o.
  Proof.
    destruct o; cbn [ustep drops]; try (intros; right; exact I);
      try (destruct (uclosed s); cbn; auto; fail).
    - unfold ureader_step. destruct (ureader s) as [| |[|e]| | | | |]; cbn; auto.
      + destruct (utry_read s); cbn; auto.
      + destruct (input_stream_size s); cbn; auto.
      + destruct (fail_with_input s e) as (_ & _ & -> & _). auto.
      + destruct (utry_read s); cbn; auto.
    - destruct (nth_error (utasks s) k) as [[|[]| | | | |]|]; cbn [utask_step]; cbn; auto.
      + destruct (fail_with_input s e) as (_ & _ & -> & _). auto.
      + destruct (try_write (uwriter s) (k, v)); cbn; auto.
    - destruct (closer (uwriter s)); cbn; auto.
    - destruct (ucancelling s); [cbn; auto|]. destruct (udestroyed s); cbn; auto.
    - destruct (ucancelling s); cbn; auto.
    - destruct (ureader s); cbn; auto. destruct (ucancelling s); cbn; auto.
      destruct (closer (uwriter s)); cbn; auto.
      destruct (udestroyed s || negb (forallb u_finished (utasks s))); cbn; auto.
  Qed.
  Lemma run_dropped s ops :
    udropped (fst (run s ops)) = true -> udropped s = true \/ Exists drops ops.
  Proof.
    revert s. induction ops as [|o ops IH]; intros s H; cbn [urun fst] in H; [auto|].
    destruct (IH _ H) as [H1|H1]; [|auto]. destruct (step_dropped _ _ H1); auto.
  Qed.

  Lemma step_expired s o :
    expired (uwriter (fst (step s o))) = true -> expired (uwriter s) = true \/ o = Expire.
  Proof.
    destruct o; cbn [ustep]; auto; try (destruct (uclosed s); cbn; auto; fail).
    - unfold ureader_step. destruct (ureader s) as [| |[|e]| | | | |]; cbn; auto.
      + destruct (utry_read s); cbn; auto.
      + destruct (input_stream_size s); cbn; auto.
      + destruct (fail_with_input s e) as (_ & _ & _ & ->). auto.
      + destruct (utry_read s); cbn; auto.
    - destruct (nth_error (utasks s) k) as [[|[]| | | | |]|]; cbn [utask_step]; cbn; auto.
      + destruct (fail_with_input s e) as (_ & _ & _ & ->). auto.
      + unfold try_write. destruct (expired (uwriter s)) eqn:X; cbn; auto.
        destruct (out_closed (uwriter s)); cbn; rewrite ?X; auto.
    - destruct (nth_error (utasks s) k) as [[]|]; cbn; auto.
    - destruct (ureader s); cbn; auto.
    - destruct (closer (uwriter s)); cbn; auto.
    - destruct (ucancelling s); cbn; auto. destruct (udestroyed s); cbn; auto.
    - destruct (ucancelling s) as [e|]; cbn; auto. destruct (fail_with_input s e) as (_ & _ & _ & ->). auto.
    - assert (TC : forall w st, expired (try_close (result := nat * result) (error := error) w st) = expired w).
      { intros w st. unfold try_close. destruct (flag w); reflexivity. }
      destruct (ureader s); cbn; auto. destruct (ucancelling s); cbn; auto.
      destruct (closer (uwriter s)); cbn; auto.
      destruct (udestroyed s || negb (forallb u_finished (utasks s))); cbn; auto.
      destruct (_ && _); cbn.
      + destruct (flag (uwriter s)) eqn:F; cbn; rewrite ?F; auto.
        unfold try_close. rewrite F. cbn. auto.
      + destruct (flag (uwriter s)) eqn:F; cbn; rewrite ?TC; auto.
  Qed.
  Lemma run_expired s ops :
    expired (uwriter (fst (run s ops))) = true -> expired (uwriter s) = true \/ In Expire ops.
  Proof.
    revert s. induction ops as [|o ops IH]; intros s H; cbn [urun fst] in H; [auto|].
    destruct (IH _ H) as [H1|H1]; [|cbn; auto]. destruct (step_expired _ _ H1); cbn; auto.
  Qed.

  (** ** The output is final *)

  Notation kept := (writer_kept (nat * result) error).
  Lemma fail_with_kept s e : kept (uwriter s) (uwriter (fst (fail_with s e))).
  Proof.
    unfold fail_with. destruct (failed s); [apply kept_refl|].
    destruct (flag (uwriter s)) eqn:F; [apply kept_refl|]. apply kept_try_close.
  Qed.
  Lemma step_kept s o : kept (uwriter s) (uwriter (fst (step s o))).
  Proof.
    destruct o; cbn [ustep]; try (destruct (uclosed s); apply kept_refl).
    - unfold ureader_step. destruct (ureader s) as [| |[|e]| | | | |]; try apply kept_refl.
      + destruct (utry_read s); apply kept_refl.
      + cbn. destruct (input_stream_size s); apply kept_refl.
      + cbn. apply fail_with_kept.
      + destruct (utry_read s); apply kept_refl.
    - destruct (nth_error (utasks s) k) as [[|[]| | | | |]|]; cbn [utask_step]; try apply kept_refl.
      + cbn. apply fail_with_kept.
      + destruct (try_write (uwriter s) (k, v)) as [w|] eqn:W; [|apply kept_refl].
        exact (kept_try_write _ _ _ _ _ W).
    - destruct (nth_error (utasks s) k) as [[]|]; apply kept_refl.
    - destruct (ureader s); apply kept_refl.
    - destruct (closer (uwriter s)) eqn:C; [|apply kept_refl]. apply kept_finish, C.
    - destruct (ucancelling s); [apply kept_refl|]. destruct (udestroyed s); apply kept_refl.
    - destruct (ucancelling s); [apply fail_with_kept|apply kept_refl].
    - cbn. split; [exists []; now rewrite app_nil_r|]. cbn. intros st E [H1 H2]. auto.
    - destruct (ureader s); try apply kept_refl. destruct (ucancelling s); try apply kept_refl.
      destruct (closer (uwriter s)) eqn:C; try apply kept_refl.
      destruct (udestroyed s || negb (forallb u_finished (utasks s))); [apply kept_refl|].
      unfold destroy_sink. destruct (flag (uwriter s)) eqn:F.
      + destruct (_ && _); cbn; rewrite ?F; apply kept_refl.
      + assert (H : forall st, kept (uwriter s) (finish_close (try_close (uwriter s) st) st)).
        { intros st. unfold try_close. rewrite F. split; [exists []; cbn; now rewrite app_nil_r|].
          intros st' E [H1 H2]. congruence. }
        destruct (_ && _); cbn [fst snd].
        * unfold try_close in *. rewrite F in *. cbn. apply H.
        * rewrite F. cbn. apply H.
  Qed.
  Lemma run_kept s ops : kept (uwriter s) (uwriter (fst (run s ops))).
  Proof.
    revert s. induction ops as [|o ops IH]; intros s; cbn [urun fst]; [apply kept_refl|].
    destruct (step_kept s o) as [(r1 & E1) H1]. destruct (IH (fst (step s o))) as [(r2 & E2) H2].
    split; [exists (r1 ++ r2); rewrite E2, E1, app_assoc; reflexivity|].
    intros st E H. destruct (H1 st E H) as (H3 & H4 & H5 & H6).
    destruct (H2 st H3 (conj H5 H6)) as (H7 & H8 & H9). split; [exact H7|]. split; [congruence|exact H9].
  Qed.

  Lemma output_final l st ops more :
    let s := fst (run (start_unordered l st) ops) in
    let s' := fst (run (start_unordered l st) (ops ++ more)) in
    (exists rest, out (uwriter s') = out (uwriter s) ++ rest)
    /\ (forall c, out_closed (uwriter s) = Some c ->
        out_closed (uwriter s') = Some c /\ out (uwriter s') = out (uwriter s)).
  Proof.
    cbv zeta. rewrite run_app.
    destruct (run_kept (fst (run (start_unordered l st) ops)) more) as [H1 H2]. split; [exact H1|].
    intros c E. destruct (H2 c E) as (H3 & H4 & _); [|auto].
    apply (u_once _ _ (reachable l st ops)). congruence.
  Qed.

  (** ** What the output is *)

  Lemma mapped_all k l c :
    (forall i x, nth_error l i = Some x -> exists v, functor (k + i) x = Value v) ->
    exists vs, mapped functor k l c = (vs, c) /\ length vs = length l
      /\ forall i x v, nth_error l i = Some x -> functor (k + i) x = Value v -> nth_error vs i = Some v.
  Proof.
    revert k. induction l as [|x l IH]; intros k H.
    - exists []. cbn. split; [reflexivity|]. split; [reflexivity|]. intros [|i] x v E; discriminate.
    - destruct (H 0 x eq_refl) as [v E]. rewrite Nat.add_0_r in E.
      destruct (IH (S k)) as (vs & E1 & E2 & E3).
      { intros i y Ey. destruct (H (S i) y Ey) as [w W]. exists w.
        replace (S k + i) with (k + S i) by lia. exact W. }
      exists (v :: vs). cbn [mapped]. rewrite E, E1. split; [reflexivity|]. split; [cbn; lia|].
      intros [|i] y w Ey Ew; cbn in *.
      + injection Ey as <-. rewrite Nat.add_0_r in Ew. congruence.
      + apply (E3 i y w Ey). replace (S (k + i)) with (k + S i) by lia. exact Ew.
  Qed.

  Lemma in_combine_seq (A : Type) (vs : list A) k i v :
    nth_error vs i = Some v -> In (k + i, v) (combine (seq k (length vs)) vs).
  Proof.
    revert k i. induction vs as [|w vs IH]; intros k [|i] E; try discriminate; cbn in *.
    - left. rewrite Nat.add_0_r. congruence.
    - right. replace (k + S i) with (S k + i) by lia. apply IH, E.
  Qed.

  Lemma complete cs s :
    inv cs s -> length (out (uwriter s)) = length (ulog s) ->
    exists vs, mapped functor 0 (ulog s) (uclosed s) = (vs, uclosed s) /\ length vs = length (ulog s)
      /\ Permutation (out (uwriter s)) (tagged vs).
  Proof.
    intros V L.
    assert (IN : incl (map fst (out (uwriter s))) (seq 0 (length (ulog s)))).
    { intros k H. apply in_seq. pose proof (offsets_bounded _ _ _ V H). pose proof (u_read _ _ V). lia. }
    assert (ALL : incl (seq 0 (length (ulog s))) (map fst (out (uwriter s)))).
    { apply NoDup_length_incl; [apply V|rewrite map_length, seq_length; lia|exact IN]. }
    destruct (mapped_all 0 (ulog s) (uclosed s)) as (vs & E1 & E2 & E3).
    { intros i x E. assert (H : In i (seq 0 (length (ulog s)))).
      { apply in_seq. assert (i < length (ulog s)) by (apply nth_error_Some; congruence). lia. }
      apply ALL in H. apply in_map_iff in H. destruct H as ([i' v] & Ei & H). cbn in Ei. subst i'.
      destruct (u_out _ _ V i v H) as [(y & Ey & Hy) _]. exists v. cbn. congruence. }
    exists vs. split; [exact E1|]. split; [exact E2|].
    unfold tagged. apply NoDup_Permutation_bis.
    - eapply NoDup_map_inv, V.
    - rewrite combine_length, seq_length. lia.
    - intros [k v] H. destruct (u_out _ _ V k v H) as [(y & Ey & Hy) _].
      apply (in_combine_seq _ vs 0). apply (E3 k y v); assumption.
  Qed.

  Lemma unordered_items l st ops :
    let w := uwriter (fst (run (start_unordered l st) ops)) in
    NoDup (map fst (out w))
    /\ forall k v, In (k, v) (out w) ->
       exists x, nth_error (fst (input_after (l, st) ops)) k = Some x /\ functor k x = Value v.
  Proof.
    cbv zeta. pose proof (run_input (start_unordered l st) ops) as E. cbn in E. rewrite <- E. cbn [fst snd].
    pose proof (reachable l st ops) as V. split; [apply V|].
    intros k v H. exact (proj1 (u_out _ _ V k v H)).
  Qed.

  Lemma evidence_meaning l st ops c :
    evidence (cancels _ _ ops) (fst (run (start_unordered l st) ops)) c ->
    let i := input_after (l, st) ops in
    exists e, c = Err e
      /\ ((exists k x, nth_error (fst i) k = Some x /\ functor k x = Error e)
          \/ snd i = Some (Err e) \/ In (Cancel e) ops \/ (e = orphaned /\ Exists drops ops)).
  Proof.
    cbv zeta. pose proof (run_input (start_unordered l st) ops) as E. cbn in E. rewrite <- E. cbn [fst snd].
    intros [(e & H & ->)|[[-> H]|[(k & e & (x & H1 & H2) & ->)|(e & H & ->)]]].
    - exists e. split; [reflexivity|]. right. right. left. exact (proj1 (in_cancels _ _ _ _) H).
    - exists orphaned. split; [reflexivity|]. right. right. right. split; [reflexivity|].
      destruct (run_dropped _ _ H) as [H'|H']; [discriminate|exact H'].
    - exists e. split; [reflexivity|]. left. eauto.
    - exists e. auto.
  Qed.

  Lemma unordered_closed l st ops c :
    let w := uwriter (fst (run (start_unordered l st) ops)) in
    let i := input_after (l, st) ops in
    out_closed w = Some c ->
    match c with
    | OK => exists vs, mapped functor 0 (fst i) (snd i) = (vs, Some OK)
              /\ Permutation (out w) (tagged vs)
    | Err e => (exists k x, nth_error (fst i) k = Some x /\ functor k x = Error e)
               \/ snd i = Some (Err e) \/ In (Cancel e) ops \/ (e = orphaned /\ Exists drops ops)
    end.
  Proof.
    cbv zeta. intros C. pose proof (reachable l st ops) as V.
    destruct (u_closed _ _ V c C) as [H|[-> H]].
    - apply evidence_meaning in H. destruct H as (e & -> & H). exact H.
    - pose proof (run_input (start_unordered l st) ops) as E. cbn in E. rewrite <- E. cbn [fst snd].
      destruct (u_size _ _ V _ H) as (H1 & H2 & H3 & _).
      destruct (complete _ _ V H2) as (vs & E1 & E2 & E3).
      exists vs. rewrite H3 in *. auto.
  Qed.

  (** ** Everything is delivered *)

  Lemma quiet_facts cs s :
    inv cs s -> uquiet functor orphaned s ->
    Forall (fun t => t = UFinished) (utasks s)
    /\ (ureader s = Waiting \/ (ureader s = Ended /\ udestroyed s = true))
    /\ closer (uwriter s) = None /\ ucancelling s = None.
  Proof.
    intros V Q.
    assert (A : Forall (fun t => t = UFinished) (utasks s)).
    { apply Forall_forall. intros t E. apply In_nth_error in E. destruct E as [k E].
      pose proof (Q (StepTask k) (or_introl I)) as H. pose proof (task_inv _ _ k V) as (_ & F & _).
      cbn [ustep] in H, F. rewrite E in H, F.
      destruct t as [|[]|v| | | |]; cbn [utask_step] in H, F; try discriminate; try reflexivity.
      - cbn [upush_status fst snd] in H. unfold fail_with in H, F.
        destruct (failed s); [discriminate|]. destruct (flag (uwriter s)); discriminate.
      - destruct (try_write (uwriter s) (k, v)); discriminate. }
    assert (CL : closer (uwriter s) = None).
    { pose proof (Q FinishClose (or_introl I)) as H. cbn [ustep] in H.
      destruct (closer (uwriter s)); [discriminate|reflexivity]. }
    assert (CA : ucancelling s = None).
    { pose proof (Q FinishCancel (or_introl I)) as H. cbn [ustep] in H.
      destruct (ucancelling s); [|reflexivity]. cbn [fst snd] in H. unfold fail_with in H.
      destruct (failed s); [discriminate|]. destruct (flag (uwriter s)); discriminate. }
    split; [exact A|]. split; [|auto].
    pose proof (Q StepReader (or_introl I)) as H. cbn [ustep] in H. unfold ureader_step in H.
    destruct (ureader s) as [| |[|e]| | | | |] eqn:R; auto; try discriminate.
    - destruct (utry_read s); discriminate.
    - cbn [upush_status fst snd] in H. destruct (input_stream_size s); discriminate.
    - cbn [upush_status fst snd] in H. unfold fail_with in H.
      destruct (failed s); [discriminate|]. destruct (flag (uwriter s)); discriminate.
    - destruct (utry_read s); discriminate.
    - right. split; [reflexivity|].
      pose proof (Q Destroy (or_intror eq_refl)) as H'. cbn [ustep] in H'.
      rewrite R, CA, CL in H'. destruct (udestroyed s); [reflexivity|].
      assert (forallb u_finished (utasks s) = true) as B.
      { apply forallb_forall. intros t E. rewrite Forall_forall in A. rewrite (A t E). reflexivity. }
      rewrite B in H'. cbn [orb negb] in H'. unfold destroy_sink in H'. exfalso.
      destruct (_ && _) in H'; cbn [fst snd] in H'.
      + destruct (flag (uwriter s)) eqn:F; cbn [fst snd] in H'.
        * rewrite F in H'. discriminate.
        * unfold try_close in H'. rewrite F in H'. discriminate.
      + destruct (flag (uwriter s)) eqn:F; cbn [fst snd] in H'; discriminate.
  Qed.

  Lemma unordered_delivers l st ops :
    let s := fst (run (start_unordered l st) ops) in
    let w := uwriter s in
    let i := input_after (l, st) ops in
    uquiet functor orphaned s -> (forall e, ~ In (Cancel e) ops) -> ~ Exists drops ops -> ~ In Expire ops ->
    (exists e, out_closed w = Some (Err e)
       /\ ((exists k x, nth_error (fst i) k = Some x /\ functor k x = Error e)
           \/ snd i = Some (Err e)))
    \/ (exists vs, mapped functor 0 (fst i) (snd i) = (vs, snd i) /\ out_closed w = snd i
          /\ length vs = length (fst i)
          /\ Permutation (out w) (tagged vs)).
  Proof.
    cbv zeta. intros Q NC ND NX.
    pose proof (reachable l st ops) as V. pose proof (evidence_meaning l st ops) as EM.
    pose proof (run_input (start_unordered l st) ops) as E. cbn in E. rewrite <- E in *. cbn [fst snd] in *.
    assert (CS : cancels _ _ ops = []).
    { destruct (cancels _ _ ops) as [|e es] eqn:C; [reflexivity|]. exfalso.
      apply (NC e). apply (in_cancels _ _). rewrite C. cbn. auto. }
    pose proof (run_dropped (start_unordered l st) ops) as D.
    pose proof (run_expired (start_unordered l st) ops) as X.
    rewrite CS in *.
    remember (fst (run (start_unordered l st) ops)) as s eqn:ES. clear ES E.
    destruct (udropped s) eqn:DS.
    { destruct (D eq_refl) as [H|H]; [discriminate|contradiction]. }
    destruct (expired (uwriter s)) eqn:XS.
    { destruct (X eq_refl) as [H|H]; [discriminate|contradiction]. }
    destruct (quiet_facts _ _ V Q) as (A & R & CL & CA).
    destruct (out_closed (uwriter s)) as [[|e]|] eqn:OC.
    - right. destruct (u_closed _ _ V OK OC) as [H|[_ H]].
      { apply EM in H. destruct H as (e & H & _). discriminate. }
      destruct (u_size _ _ V _ H) as (H1 & H2 & H3 & _).
      destruct (complete _ _ V H2) as (vs & E1 & E2 & E3). exists vs. rewrite H3 in *. auto.
    - left. exists e. split; [reflexivity|].
      destruct (u_closed _ _ V (Err e) OC) as [H|[H _]]; [|discriminate].
      apply EM in H. destruct H as (e' & [= <-] & [H|[H|[H|[_ H]]]]); auto; try contradiction.
      exfalso. exact (NC _ H).
    - right. destruct R as [R|[R DD]].
      + pose proof (u_reader _ _ V) as H. rewrite R in H. destruct H as [H1 H2].
        assert (F : failed s = false).
        { destruct (failed s) eqn:F; [|reflexivity]. exfalso.
          destruct (u_failed _ _ V F) as [H|H]; [|congruence].
          destruct (u_flagged _ _ V H XS); congruence. }
        destruct (complete _ _ V) as (vs & E1 & E2 & E3).
        { rewrite (all_written _ _ V A F DS). exact H2. }
        exists vs. rewrite H1 in *. auto.
      + exfalso. destruct (u_destroyed _ _ V DD) as [_ F].
        destruct (u_failed _ _ V F) as [H|H]; [|congruence].
        destruct (u_flagged _ _ V H XS); congruence.
  Qed.

  (** ** The threads end *)

  Definition task_weight (t : task) : nat :=
    match t with
    | UQueued _ => 5 | UCalled _ => 4 | UWriting _ => 3 | UFailing => 2 | UCounting => 1
    | UStopping => 1 | UFinished => 0
    end.
  Definition is_empty (r : read_result value error) : bool :=
    match r with Empty => true | _ => false end.
  Definition reader_weight s : nat :=
    match ureader s with
    | AtTest => 6 | AtRead => 5 | AtPush _ => 4
    | AtSubscribe => if is_empty (utry_read s) then 1 else 9
    | Waiting => 0 | InCallback => 8 | InQueue => 7 | Ended => 0
    end.
  Definition writer_weight (w : writer (nat * result) error) : nat :=
    (if flag w then 0 else 2) + match closer w with Some _ => 1 | None => 0 end.
  Definition work s : nat :=
    10 * (length (ulog s) - uread_count s) + reader_weight s + list_sum (map task_weight (utasks s))
    + writer_weight (uwriter s)
    + match ucancelling s with Some _ => 3 | None => 0 end
    + (if udestroyed s then 0 else 1).

  Lemma sum_update (l : list task) k t t' :
    nth_error l k = Some t ->
    list_sum (map task_weight (update l k t')) + task_weight t
    = list_sum (map task_weight l) + task_weight t'.
  Proof.
    revert k. induction l as [|u l IH]; intros [|k] E; try discriminate; cbn in E; cbn [update map].
    - rewrite !sum_cons. injection E as ->. lia.
    - rewrite !sum_cons. specialize (IH k E). lia.
  Qed.

  Lemma fail_with_weight cs s e :
    inv cs s -> let s' := fst (fail_with s e) in
    writer_weight (uwriter s') <= writer_weight (uwriter s) /\ utasks s' = utasks s
    /\ ulog s' = ulog s /\ uread_count s' = uread_count s /\ ureader s' = ureader s
    /\ uclosed s' = uclosed s /\ ucancelling s' = ucancelling s /\ udestroyed s' = udestroyed s.
  Proof.
    intros V. unfold fail_with. destruct (failed s) eqn:FA; [cbn; auto 10|].
    destruct (flag (uwriter s)) eqn:F; [cbn; auto 10|]. cbn. split; [|auto 10].
    unfold try_close, writer_weight. rewrite F. destruct (u_flag _ _ V F) as [-> _]. cbn. lia.
  Qed.

  Lemma internal_work cs s o :
    inv cs s -> internal o \/ o = Destroy -> snd (step s o) = Done -> work (fst (step s o)) < work s.
  Proof.
    intros V IN D. unfold work.
    destruct o; try (destruct IN as [[]|IN]; discriminate IN); cbn [ustep] in *.
    - unfold ureader_step in *.
      destruct (ureader s) as [| |st| | | | |] eqn:R; try discriminate; cbn [fst snd] in *.
      + unfold reader_weight. cbn [at_ureader ureader]. rewrite R.
        destruct (ustop_reader s); cbn [ulog uread_count utasks uwriter ucancelling udestroyed at_ureader]; lia.
      + unfold reader_weight. rewrite R. destruct (utry_read s) as [|x|st] eqn:T;
          cbn [fst ulog uread_count ureader utasks uwriter ucancelling udestroyed at_ureader].
        * change (utry_read (at_ureader s AtSubscribe)) with (utry_read s). rewrite T. cbn [is_empty]. lia.
        * apply read_item in T.
          assert (uread_count s < length (ulog s)) by (apply nth_error_Some; congruence).
          rewrite map_app, list_sum_app. cbn [map]. rewrite sum_cons. cbn [task_weight].
          replace (list_sum []) with 0 by reflexivity. lia.
        * lia.
      + destruct st as [|e]; cbn [upush_status] in *.
        * destruct (input_stream_size s); [discriminate|]. unfold reader_weight. rewrite R.
          cbn [fst ulog uread_count ureader utasks uwriter ucancelling udestroyed at_ureader with_size]. lia.
        * destruct (fail_with_weight cs s e V) as (W & _).
          unfold reader_weight. rewrite R.
          cbn [fst ulog uread_count ureader utasks uwriter ucancelling udestroyed at_ureader].
          destruct (fail_with_weight cs s e V) as (_ & -> & -> & -> & _ & _ & -> & ->). lia.
      + unfold reader_weight. rewrite R. destruct (utry_read s) as [|x|st] eqn:T; cbn [is_empty];
          cbn [fst ulog uread_count ureader utasks uwriter ucancelling udestroyed at_ureader]; lia.
      + unfold reader_weight. cbn [at_ureader ureader]. rewrite R.
        destruct (ustop_reader s); cbn [ulog uread_count utasks uwriter ucancelling udestroyed at_ureader]; lia.
      + unfold reader_weight. cbn [at_ureader ureader]. rewrite R.
        cbn [ulog uread_count utasks uwriter ucancelling udestroyed at_ureader]; lia.
    - destruct (nth_error (utasks s) k) as [t|] eqn:T; [|discriminate].
      assert (LW : forall s' t', utasks s' = update (utasks s) k t' -> ulog s' = ulog s ->
        uread_count s' = uread_count s -> ureader s' = ureader s -> ucancelling s' = ucancelling s ->
        uclosed s' = uclosed s -> udestroyed s' = udestroyed s ->
        task_weight t' + writer_weight (uwriter s') < task_weight t + writer_weight (uwriter s) ->
        10 * (length (ulog s') - uread_count s') + reader_weight s' + list_sum (map task_weight (utasks s'))
        + writer_weight (uwriter s') + match ucancelling s' with Some _ => 3 | None => 0 end
        + (if udestroyed s' then 0 else 1) <
        10 * (length (ulog s) - uread_count s) + reader_weight s + list_sum (map task_weight (utasks s))
        + writer_weight (uwriter s) + match ucancelling s with Some _ => 3 | None => 0 end
        + (if udestroyed s then 0 else 1)).
      { intros s' t' E1 E2 E3 E4 E5 E6 E7 H.
        assert (reader_weight s' = reader_weight s) as ->
          by (unfold reader_weight, utry_read; rewrite E2, E3, E4, E6; reflexivity).
        rewrite E1, E2, E3, E5, E7. pose proof (sum_update _ _ _ t' T). lia. }
      destruct t as [x|[v|e]|v| | | |]; cbn [utask_step] in *; try discriminate.
      + eapply LW; try reflexivity. cbn [fst at_utask uwriter].
        destruct (failed s); cbn [task_weight]; lia.
      + eapply LW; try reflexivity. cbn [fst at_utask uwriter].
        destruct (failed s); cbn [task_weight]; lia.
      + cbn [upush_status fst snd] in *.
        destruct (fail_with_weight cs s e V) as (W & E1 & E2 & E3 & E4 & E5 & E6 & E7).
        eapply LW; cbn [at_utask utasks ulog uread_count ureader ucancelling uclosed udestroyed uwriter];
          try eassumption; [rewrite E1; reflexivity|]. cbn [task_weight]. lia.
      + unfold try_write in *. destruct (expired (uwriter s)); [|destruct (out_closed (uwriter s))];
          eapply LW; try reflexivity; unfold writer_weight;
          cbn [fst at_utask with_failed uwriter flag closer task_weight]; lia.
      + eapply LW; try reflexivity. cbn [fst at_utask with_count uwriter task_weight]. lia.
      + eapply LW; try reflexivity. cbn [fst at_utask with_failed uwriter task_weight]. lia.
      + eapply LW; try reflexivity. cbn [fst at_utask ustopped uwriter task_weight]. lia.
    - destruct (closer (uwriter s)) as [c|] eqn:C; [|discriminate].
      unfold writer_weight. cbn [fst with_failed uwriter ulog uread_count utasks ucancelling udestroyed finish_close flag closer].
      rewrite C.
      change (reader_weight (with_failed s (failed s) (finish_close (uwriter s) c))) with (reader_weight s).
      lia.
    - destruct (ucancelling s) as [e|] eqn:C; [|discriminate].
      destruct (fail_with_weight cs s e V) as (W & _).
      cbn [fst ulog uread_count utasks uwriter ucancelling udestroyed].
      match goal with |- context [reader_weight ?x] => change (reader_weight x) with (reader_weight s) end.
      lia.
    - destruct (ureader s) eqn:R; try discriminate. destruct (ucancelling s) eqn:C; try discriminate.
      destruct (closer (uwriter s)) eqn:CL; try discriminate.
      destruct (udestroyed s) eqn:DS; cbn [orb] in *; [discriminate|].
      destruct (forallb u_finished (utasks s)); cbn [negb] in *; [|discriminate].
      assert (W : writer_weight (uwriter (fst (destroy_sink orphaned s))) <= writer_weight (uwriter s)).
      { unfold destroy_sink, writer_weight. rewrite CL. destruct (flag (uwriter s)) eqn:F.
        - destruct (_ && _); cbn [fst snd uwriter]; rewrite ?F; cbn [fst snd uwriter]; rewrite ?F, ?CL; lia.
        - destruct (_ && _); cbn [fst snd uwriter]; rewrite ?F; unfold try_close; rewrite ?F; cbn; lia. }
      change (reader_weight (fst (destroy_sink orphaned s))) with (reader_weight s).
      change (ulog (fst (destroy_sink orphaned s))) with (ulog s).
      change (uread_count (fst (destroy_sink orphaned s))) with (uread_count s).
      change (utasks (fst (destroy_sink orphaned s))) with (utasks s).
      change (ucancelling (fst (destroy_sink orphaned s))) with (ucancelling s).
      change (udestroyed (fst (destroy_sink orphaned s))) with true.
      rewrite C. lia.
  Qed.

End Proofs.
