(** Proofs about mapping in order. *)
From Coq Require Import List Bool PeanoNat Lia.
From Verif Require Import ChainModel ChainProofs InterleaveProofs MapModel MapSpec.
Import ListNotations.
Local Open Scope nat_scope.

Section Proofs.
  Variables value result error : Type.
  Variable functor : nat -> value -> outcome result error.
  Variable orphaned : error.
  Notation status := (status error).
  Notation state := (state value result error).
  Notation op := (op value error).
  Notation task := (task value result error).
  Notation step := (step functor orphaned).
  Notation run := (run functor orphaned).
  Implicit Types s : state.

  Definition outcome_at s k : option (outcome result error) :=
    match nth_error (log s) k with Some x => Some (functor k x) | None => None end.

  Definition status_at s (f : nat) (st : status) : Prop :=
    (f = length (log s) /\ closed s = Some st)
    \/ exists e, outcome_at s f = Some (Error e) /\ st = Err e.

  Definition past (t : task) : Prop :=
    match t with Pushing | Stopping | Finished => True | _ => False end.

  Definition at_buffer (b : list (option result)) i : option result := nth i b None.

  Local Arguments at_buffer : simpl never.

  Definition over s : Prop :=
    exists f, final_offset (the_sink s) = Some f /\ f <= write_count (the_sink s)
              /\ mutex (the_sink s) = None.

  Record inv (cancels : list error) s : Prop := Inv {
    m_tasks : length (tasks s) = read_count s;
    m_read : read_count s <= length (log s);
    m_task : forall k t, nth_error (tasks s) k = Some t ->
      match t with
      | Queued x => nth_error (log s) k = Some x
      | Called r => outcome_at s k = Some r
      | Stopping => exists f, final_offset (the_sink s) = Some f /\ f <= k
      | _ => True
      end;
    m_out : length (out (the_writer s)) = write_count (the_sink s);
    m_value : forall i v, nth_error (out (the_writer s)) i = Some v -> outcome_at s i = Some (Value v);
    m_buffer : forall i v, at_buffer (buffer (the_sink s)) i = Some v ->
      outcome_at s (write_count (the_sink s) + i) = Some (Value v)
      /\ exists t, nth_error (tasks s) (write_count (the_sink s) + i) = Some t /\ past t;
    m_done : forall i, i < write_count (the_sink s) ->
      exists t, nth_error (tasks s) i = Some t /\ past t;
    m_past : forall k t, nth_error (tasks s) k = Some t -> past t ->
      k < write_count (the_sink s)
      \/ at_buffer (buffer (the_sink s)) (k - write_count (the_sink s)) <> None
      \/ (exists f, final_offset (the_sink s) = Some f /\ f <= k)
      \/ dropped s = true;
    m_final : forall f, final_offset (the_sink s) = Some f ->
      f <= read_count s
      /\ (((flag (the_writer s) = true \/ expired (the_writer s) = true)
           /\ mutex (the_sink s) = None /\ f <= write_count (the_sink s))
          \/ (write_count (the_sink s) <= f /\ status_at s f (final_status (the_sink s))
              /\ (write_count (the_sink s) = f -> mutex (the_sink s) <> None)));
    m_drained : mutex (the_sink s) = None -> ~ over s -> at_buffer (buffer (the_sink s)) 0 = None;
    m_mutex : forall k, mutex (the_sink s) = Some k <-> nth_error (tasks s) k = Some Pushing;
    m_closer : forall st, closer (the_writer s) = Some st \/ out_closed (the_writer s) = Some st ->
      (exists e, In e cancels /\ st = Err e) \/ (st = Err orphaned /\ dropped s = true)
      \/ (status_at s (write_count (the_sink s)) st /\ over s);
    m_cancelling : forall st, cancelling s = Some st -> exists e, In e cancels /\ st = Err e;
    m_cancelled : cancels <> [] -> cancelling s <> None \/ flag (the_writer s) = true;
    m_flag : flag (the_writer s) = false ->
      closer (the_writer s) = None /\ out_closed (the_writer s) = None;
    m_flagged : flag (the_writer s) = true -> expired (the_writer s) = false ->
      closer (the_writer s) <> None \/ out_closed (the_writer s) <> None;
    m_stop : stop_reader s = true ->
      cancels <> [] \/ exists f, final_offset (the_sink s) = Some f;
    m_reader : match reader s with
      | AtPush st => closed s = Some st /\ read_count s = length (log s)
      | Waiting => closed s = None /\ read_count s = length (log s)
      | Ended => cancels <> [] \/ (exists f, final_offset (the_sink s) = Some f) \/ dropped s = true
      | _ => True
      end;
    m_destroyed : destroyed s = true -> reader s = Ended /\ flag (the_writer s) = true
  }.

  Lemma inv_start l st : inv [] (start_map l st).
  Proof.
    constructor; cbn; auto; try discriminate; try lia.
    - intros k t E. destruct k; discriminate.
    - intros i v E. destruct i; discriminate.
    - intros i v E. unfold at_buffer in E. destruct i; discriminate.
    - intros k t E. destruct k; discriminate.
    - intros k. split; [discriminate|]. destruct k; discriminate.
    - intros st' [E|E]; discriminate.
  Qed.

  Lemma at_set_buffer b i v j :
    at_buffer (set_buffer b i v) j = if j =? i then Some v else at_buffer b j.
  Proof.
    unfold at_buffer. revert b j. induction i as [|i IH]; intros b j.
    - cbn [set_buffer]. destruct j as [|j]; cbn; [reflexivity|].
      destruct b as [|x b]; cbn; [destruct j; reflexivity|reflexivity].
    - destruct b as [|x b]; cbn [set_buffer]; destruct j as [|j]; cbn; try reflexivity.
      + rewrite IH. destruct (j =? i); [reflexivity|]. destruct j; reflexivity.
      + rewrite IH. reflexivity.
  Qed.

  Lemma outcome_grow s x k r :
    outcome_at s k = Some r ->
    match nth_error (log s ++ [x]) k with Some x => Some (functor k x) | None => None end = Some r.
  Proof.
    unfold outcome_at. destruct (nth_error (log s) k) as [y|] eqn:E; [|discriminate].
    intros H. rewrite nth_error_app1; [now rewrite E|]. apply nth_error_Some. congruence.
  Qed.

  (** ** Events outside *)

  Lemma env_write_inv cs s x : inv cs s -> inv cs (fst (step s (EnvWrite x))).
  Proof.
    intros V. cbn [MapModel.step]. destruct (closed s) as [st|] eqn:C; [exact V|]. cbn.
    assert (G : forall k r, outcome_at s k = Some r ->
      outcome_at (State (log s ++ [x]) (closed s) (read_count s) (woken (reader s)) (stop_reader s)
        (tasks s) (the_sink s) (the_writer s) (cancelling s) (dropped s) (destroyed s)) k = Some r)
      by (intros; apply outcome_grow; assumption).
    assert (A : forall f st, status_at s f st ->
      status_at (State (log s ++ [x]) (closed s) (read_count s) (woken (reader s)) (stop_reader s)
        (tasks s) (the_sink s) (the_writer s) (cancelling s) (dropped s) (destroyed s)) f st).
    { intros f st [[_ H]|(e & H & ->)]; [congruence|]. right. exists e. auto. }
    rewrite C in *.
    constructor; cbn; try apply V.
    - rewrite app_length. pose proof (m_read _ _ V). lia.
    - intros k t E. pose proof (m_task _ _ V k t E) as H. destruct t; auto.
      rewrite nth_error_app1; [exact H|]. apply nth_error_Some. congruence.
    - intros i v E. apply G. exact (m_value _ _ V i v E).
    - intros i v E. destruct (m_buffer _ _ V i v E) as [H1 H2]. auto.
    - intros f E. destruct (m_final _ _ V f E) as [H1 [H|(H2 & H3 & H4)]]; auto 6.
    - intros st E. destruct (m_closer _ _ V st E) as [H|[H|[H H']]]; auto.
    - pose proof (m_reader _ _ V) as R. destruct (reader s); cbn; auto.
      destruct R as [R _]. congruence.
    - intros D. destruct (m_destroyed _ _ V D) as [-> F]. auto.
  Qed.

  Lemma env_close_inv cs s st : inv cs s -> inv cs (fst (step s (EnvClose st))).
  Proof.
    intros V. cbn [MapModel.step]. destruct (closed s) as [st'|] eqn:C; [exact V|]. cbn.
    assert (A : forall f st', status_at s f st' ->
      status_at (State (log s) (Some st) (read_count s) (woken (reader s)) (stop_reader s)
        (tasks s) (the_sink s) (the_writer s) (cancelling s) (dropped s) (destroyed s)) f st').
    { intros f st' [[_ H]|(e & H & ->)]; [congruence|]. right. exists e. auto. }
    constructor; cbn; try apply V.
    - intros f E. destruct (m_final _ _ V f E) as [H1 [H|(H2 & H3 & H4)]]; auto 6.
    - intros st' E. destruct (m_closer _ _ V st' E) as [H|[H|[H H']]]; auto.
    - pose proof (m_reader _ _ V) as R. destruct (reader s); cbn; auto.
      destruct R as [R _]. congruence.
    - intros D. destruct (m_destroyed _ _ V D) as [-> F]. auto.
  Qed.

  Lemma finish_close_inv cs s : inv cs s -> inv cs (fst (step s FinishClose)).
  Proof.
    intros V. cbn [MapModel.step]. destruct (closer (the_writer s)) as [st|] eqn:C; [|exact V]. cbn.
    constructor; cbn; try apply V.
    - intros st' [H|H]; [discriminate|].
      apply (m_closer _ _ V st'). destruct (expired (the_writer s)); [auto|].
      left. congruence.
    - intros F. destruct (m_flag _ _ V F). congruence.
    - intros F X. rewrite X. right. discriminate.
  Qed.

  Lemma cancel_inv cs s e : inv cs s -> inv (cs ++ [e]) (fst (step s (Cancel e))).
  Proof.
    intros V. assert (N : cs ++ [e] <> []) by (destruct cs; discriminate).
    cbn [MapModel.step]. destruct (cancelling s) as [st|] eqn:C; [|destruct (destroyed s) eqn:D]; cbn.
    3: { constructor; cbn; try apply V; auto.
      - intros st E. destruct (m_closer _ _ V st E) as [(e' & H & ->)|[H|H]]; auto.
        left. exists e'. split; [apply in_or_app; auto|auto].
      - intros st [= <-]. exists e. split; [apply in_or_app; cbn; auto|auto].
      - intros _. left. discriminate.
      - pose proof (m_reader _ _ V) as R. destruct (reader s); auto.
      - congruence. }
    - constructor; cbn; try apply V; auto.
      + intros st' E. destruct (m_closer _ _ V st' E) as [(e' & H & ->)|[H|H]]; auto.
        left. exists e'. split; [apply in_or_app; auto|auto].
      + intros st' E. destruct (m_cancelling _ _ V st' E) as (e' & H & ->).
        exists e'. split; [apply in_or_app; auto|auto].
      + intros _. left. congruence.
      + pose proof (m_reader _ _ V) as R. destruct (reader s); auto.
    - constructor; cbn; try apply V; auto.
      + intros st' E. destruct (m_closer _ _ V st' E) as [(e' & H & ->)|[H|H]]; auto.
        left. exists e'. split; [apply in_or_app; auto|auto].
      + intros st' E. destruct (m_cancelling _ _ V st' E) as (e' & H & ->).
        exists e'. split; [apply in_or_app; auto|auto].
      + intros _. right. exact (proj2 (m_destroyed _ _ V D)).
      + pose proof (m_reader _ _ V) as R. destruct (reader s); auto.
  Qed.

  Lemma finish_cancel_inv cs s : inv cs s -> inv cs (fst (step s FinishCancel)).
  Proof.
    intros V. cbn [MapModel.step]. destruct (cancelling s) as [st|] eqn:C; [|exact V]. cbn.
    unfold try_close. destruct (flag (the_writer s)) eqn:F.
    - constructor; cbn; try apply V; [intros st' H; discriminate|auto].
    - destruct (m_flag _ _ V F) as [F1 F2].
      constructor; cbn; try apply V.
      + intros f E. destruct (m_final _ _ V f E) as [H1 [(H2 & H3)|H]]; auto 6.
      + intros st' [H|H]; [|congruence]. left. apply (m_cancelling _ _ V). congruence.
      + intros st' H; discriminate.
      + auto.
      + discriminate.
      + intros _ _. left. discriminate.
      + intros D. destruct (m_destroyed _ _ V D) as [-> _]. auto.
  Qed.

  Lemma expire_inv cs s : inv cs s -> inv cs (fst (step s Expire)).
  Proof.
    intros V. cbn.
    constructor; cbn; try apply V.
    - intros f E. destruct (m_final _ _ V f E) as [H1 [(H2 & H3)|H]]; auto 6.
    - discriminate.
  Qed.

  Lemma drop_reader_inv cs s : inv cs s -> inv cs (fst (step s DropReader)).
  Proof.
    intros V. cbn [MapModel.step]. destruct (reader s) eqn:R; try exact V. cbn.
    constructor; cbn; try apply V; auto.
    - intros st E. destruct (m_closer _ _ V st E) as [H|[[H H']|H]]; auto.
    - intros D. destruct (m_destroyed _ _ V D). auto.
  Qed.

  Lemma drop_task_inv cs s k : inv cs s -> inv cs (fst (step s (DropTask k))).
  Proof.
    intros V. cbn [MapModel.step]. destruct (nth_error (tasks s) k) as [[x| | | |]|] eqn:T; try exact V.
    cbn.
    assert (P : forall i, (exists t, nth_error (tasks s) i = Some t /\ past t) ->
      exists t, nth_error (update (tasks s) k Finished) i = Some t /\ past t).
    { intros i (t & E & H). destruct (Nat.eq_dec k i) as [<-|N].
      - rewrite (nth_update_same _ _ _ _ _ T). exists Finished. cbn. auto.
      - rewrite nth_update_other by exact N. eauto. }
    constructor; cbn; try apply V; auto.
    - rewrite update_length. apply V.
    - intros i t E. destruct (Nat.eq_dec k i) as [<-|N].
      + rewrite (nth_update_same _ _ _ _ _ T) in E. injection E as <-. exact I.
      + rewrite nth_update_other in E by exact N. exact (m_task _ _ V i t E).
    - intros i v E. destruct (m_buffer _ _ V i v E) as [H1 H2]. auto.
    - intros i L. apply P. exact (m_done _ _ V i L).
    - intros i. rewrite (m_mutex _ _ V i). destruct (Nat.eq_dec k i) as [<-|N].
      + rewrite (nth_update_same _ _ _ _ _ T). rewrite T. split; discriminate.
      + rewrite nth_update_other by exact N. reflexivity.
    - intros st E. destruct (m_closer _ _ V st E) as [H|[[H H']|H]]; auto.
    - pose proof (m_reader _ _ V) as R. destruct (reader s); auto.
  Qed.

  (** ** The end of the routine *)

  Lemma all_finished_no_mutex cs s :
    inv cs s -> Forall (fun t => t = Finished) (tasks s) -> mutex (the_sink s) = None.
  Proof.
    intros V A. destruct (mutex (the_sink s)) as [k|] eqn:M; [|reflexivity].
    apply (m_mutex _ _ V) in M. apply nth_error_In in M. rewrite Forall_forall in A.
    specialize (A _ M). discriminate.
  Qed.

  Lemma not_missing cs s k :
    inv cs s -> Forall (fun t => t = Finished) (tasks s) -> dropped s = false -> ~ over s ->
    k = write_count (the_sink s) -> k < read_count s ->
    exists f, final_offset (the_sink s) = Some f /\ f <= k.
  Proof.
    intros V A D O K L.
    pose proof (m_drained _ _ V (all_finished_no_mutex _ _ V A) O) as B.
    destruct (nth_error (tasks s) k) as [t|] eqn:T.
    2: { apply nth_error_None in T. rewrite (m_tasks _ _ V) in T. lia. }
    assert (t = Finished) as -> by (rewrite Forall_forall in A; apply A; eapply nth_error_In; eauto).
    destruct (m_past _ _ V k Finished T I) as [H|[H|[H|H]]].
    - lia.
    - subst k. rewrite Nat.sub_diag in H. contradiction.
    - exact H.
    - congruence.
  Qed.

  Lemma settled cs s f :
    inv cs s -> Forall (fun t => t = Finished) (tasks s) -> dropped s = false ->
    final_offset (the_sink s) = Some f ->
    (flag (the_writer s) = true \/ expired (the_writer s) = true) /\ over s.
  Proof.
    intros V A D E. pose proof (all_finished_no_mutex _ _ V A) as M.
    destruct (m_final _ _ V f E) as [L [(H1 & H2 & H3)|(H1 & H2 & H3)]].
    - split; [exact H1|]. exists f. auto.
    - exfalso. assert (write_count (the_sink s) < f).
      { destruct (Nat.eq_dec (write_count (the_sink s)) f) as [Q|Q]; [|lia]. exfalso. exact (H3 Q M). }
      assert (~ over s) as O. { intros (f' & E' & L' & _). rewrite E in E'. injection E' as <-. lia. }
      destruct (not_missing _ _ (write_count (the_sink s)) V A D O eq_refl) as (f' & E' & L'); [lia|].
      rewrite E in E'. injection E' as <-. lia.
  Qed.

  Lemma forallb_finished (l : list task) :
    forallb is_finished l = true -> Forall (fun t => t = Finished) l.
  Proof.
    intros H. rewrite forallb_forall in H. apply Forall_forall. intros t E. specialize (H t E).
    destruct t; try discriminate. reflexivity.
  Qed.

  Lemma destroy_inv cs s : inv cs s -> inv cs (fst (step s Destroy)).
  Proof.
    intros V. cbn [MapModel.step].
    destruct (reader s) eqn:R; try exact V. destruct (cancelling s) eqn:C; [exact V|].
    destruct (closer (the_writer s)) eqn:CL; [exact V|].
    destruct (destroyed s) eqn:DS; cbn [orb]; [exact V|].
    destruct (forallb is_finished (tasks s)) eqn:A; cbn [negb]; [|exact V].
    apply forallb_finished in A. cbn [fst].
    destruct (flag (the_writer s)) eqn:F.
    - constructor; cbn; try apply V; auto.
      + discriminate.
      + pose proof (m_reader _ _ V) as H. rewrite R in H. exact H.
    - destruct (m_flag _ _ V F) as [F1 F2].
      unfold try_close. rewrite F.
      constructor; cbn; try apply V; auto.
      + intros f E. destruct (m_final _ _ V f E) as [H1 [(H2 & H3)|H]]; auto 6.
      + intros st [H|H]; [discriminate|].
        destruct (expired (the_writer s)) eqn:X; [congruence|].
        assert (st = Err orphaned) as -> by congruence.
        right. left. split; [reflexivity|].
        destruct (dropped s) eqn:D; [reflexivity|]. exfalso.
        assert (cs = []) as ->.
        { destruct cs as [|c cs]; [reflexivity|]. destruct (m_cancelled _ _ V); congruence. }
        pose proof (m_reader _ _ V) as H1. rewrite R in H1.
        destruct H1 as [H1|[(f & H1)|H1]]; try congruence.
        destruct (settled _ _ f V A D H1) as [[H2|H2] _]; congruence.
      + discriminate.
      + discriminate.
      + intros _ X. rewrite X. right. discriminate.
      + pose proof (m_reader _ _ V) as H. rewrite R in H. exact H.
  Qed.

  (** ** PushStatus *)

  Lemma accepts_spec (k : sink result error) i :
    accepts k i = true <-> forall f, final_offset k = Some f -> i < f.
  Proof.
    unfold accepts. destruct (final_offset k) as [f|].
    - rewrite Nat.ltb_lt. split; [intros L f' [= <-]; exact L|auto].
    - split; [intros _ f; discriminate|reflexivity].
  Qed.
  Lemma rejects_spec (k : sink result error) i :
    accepts k i = false -> exists f, final_offset k = Some f /\ f <= i.
  Proof.
    unfold accepts. destruct (final_offset k) as [f|]; [|discriminate].
    intros L. apply Nat.ltb_ge in L. eauto.
  Qed.

  Lemma push_status_inv cs s i st :
    inv cs s -> mutex (the_sink s) = None -> write_count (the_sink s) <= i -> i <= read_count s ->
    status_at s i st ->
    let kw := push_status (the_sink s) (the_writer s) i st in
    inv cs (with_sink s (fst kw) (snd kw))
    /\ (exists f, final_offset (fst kw) = Some f /\ f <= i)
    /\ mutex (fst kw) = None
    /\ buffer (fst kw) = buffer (the_sink s) /\ write_count (fst kw) = write_count (the_sink s).
  Proof.
    intros V M L1 L2 A. unfold push_status.
    destruct (accepts (the_sink s) i) eqn:AC.
    2: { cbn. split; [|destruct (rejects_spec _ _ AC) as (f & E & L); eauto 8].
         destruct s; exact V. }
    rewrite accepts_spec in AC.
    assert (O : ~ over s). { intros (f & E & L & _). specialize (AC f E). lia. }
    assert (P : forall k t, nth_error (tasks s) k = Some t ->
      match t with
      | Queued x => nth_error (log s) k = Some x
      | Called r => outcome_at s k = Some r
      | Stopping => exists f, Some i = Some f /\ f <= k
      | _ => True
      end).
    { intros k t E. pose proof (m_task _ _ V k t E) as H. destruct t; auto.
      destruct H as (f & E' & L). specialize (AC f E'). exists i. split; [reflexivity|lia]. }
    assert (Q : forall k t, nth_error (tasks s) k = Some t -> past t ->
      k < write_count (the_sink s)
      \/ at_buffer (buffer (the_sink s)) (k - write_count (the_sink s)) <> None
      \/ (exists f, Some i = Some f /\ f <= k) \/ dropped s = true).
    { intros k t E H. destruct (m_past _ _ V k t E H) as [H1|[H1|[(f & E' & H1)|H1]]]; auto.
      right. right. left. exists i. split; [reflexivity|]. specialize (AC f E'). lia. }
    destruct (Nat.eqb_spec i (write_count (the_sink s))) as [EQ|NE]; cbn [fst snd].
    - split; [|cbn; eauto 8].
      assert (over (with_sink s (Sink (Some i) (final_status (the_sink s)) (write_count (the_sink s))
        (buffer (the_sink s)) (mutex (the_sink s))) (try_close (the_writer s) st))) as OV.
      { exists i. cbn. split; [reflexivity|]. split; [lia|exact M]. }
      unfold try_close in *. destruct (flag (the_writer s)) eqn:F.
      + constructor; cbn; try apply V; auto.
        * intros f [= <-]. split; [exact L2|]. left. split; [auto|]. split; [exact M|lia].
        * intros _ H. contradiction.
        * intros st' E. destruct (m_closer _ _ V st' E) as [H|[H|[H H']]]; auto.
        * intros H. right. eauto.
        * pose proof (m_reader _ _ V) as R. destruct (reader s); eauto.
      + destruct (m_flag _ _ V F) as [F1 F2].
        constructor; cbn; try apply V; auto.
        * intros f [= <-]. split; [exact L2|]. left. split; [auto|]. split; [exact M|lia].
        * intros _ H. contradiction.
        * intros st' [E|E]; [|congruence]. right. right.
          assert (st' = st) as -> by congruence. rewrite EQ in A. split; [exact A|exact OV].
        * discriminate.
        * intros _ _. left. discriminate.
        * intros H. right. eauto.
        * pose proof (m_reader _ _ V) as R. destruct (reader s); eauto.
        * intros D. destruct (m_destroyed _ _ V D). auto.
    - split; [|cbn; eauto 8].
      constructor; cbn; try apply V; auto.
      + intros f [= <-]. split; [exact L2|]. right. split; [lia|]. split; [exact A|]. lia.
      + intros _ H. apply (m_drained _ _ V M O).
      + intros st' E. destruct (m_closer _ _ V st' E) as [H|[H|[H H']]]; auto. contradiction.
      + intros H. right. eauto.
      + pose proof (m_reader _ _ V) as R. destruct (reader s); eauto.
  Qed.

  (** ** The reader *)

  Lemma read_item s x :
    try_read s = Item x -> nth_error (log s) (read_count s) = Some x.
  Proof.
    unfold try_read. destruct (nth_error (log s) (read_count s)); [congruence|].
    destruct (closed s); discriminate.
  Qed.
  Lemma read_closed s st :
    try_read s = Closed st -> closed s = Some st /\ length (log s) <= read_count s.
  Proof.
    unfold try_read. destruct (nth_error (log s) (read_count s)) eqn:E; [discriminate|].
    apply nth_error_None in E. destruct (closed s); intros; [|discriminate]. split; [congruence|lia].
  Qed.
  Lemma read_empty s :
    try_read s = Empty -> closed s = None /\ length (log s) <= read_count s.
  Proof.
    unfold try_read. destruct (nth_error (log s) (read_count s)) eqn:E; [discriminate|].
    apply nth_error_None in E. destruct (closed s); intros; [discriminate|]. split; [congruence|lia].
  Qed.

  Lemma move_inv cs s p :
    inv cs s -> reader s <> Ended ->
    match p with
    | AtPush st => closed s = Some st /\ read_count s = length (log s)
    | Waiting => closed s = None /\ read_count s = length (log s)
    | Ended => cs <> [] \/ (exists f, final_offset (the_sink s) = Some f) \/ dropped s = true
    | _ => True
    end -> inv cs (at_reader s p).
  Proof.
    intros V R P. constructor; cbn; try apply V; auto.
    intros D. destruct (m_destroyed _ _ V D). contradiction.
  Qed.

  Lemma stop_evidence cs s :
    inv cs s -> stop_reader s = true ->
    cs <> [] \/ (exists f, final_offset (the_sink s) = Some f) \/ dropped s = true.
  Proof. intros V H. destruct (m_stop _ _ V H); auto. Qed.

  Lemma count_le_read cs s : inv cs s -> write_count (the_sink s) <= read_count s.
  Proof.
    intros V. destruct (write_count (the_sink s)) as [|n] eqn:E; [lia|].
    destruct (m_done _ _ V n) as (t & H & _); [lia|].
    assert (n < length (tasks s)) by (apply nth_error_Some; congruence).
    rewrite (m_tasks _ _ V) in *. lia.
  Qed.

  Lemma reader_inv cs s : inv cs s -> inv cs (fst (step s StepReader)).
  Proof.
    intros V. cbn [MapModel.step]. unfold reader_step.
    destruct (reader s) as [| |st| | | | |] eqn:R; cbn [fst]; try exact V.
    - apply move_inv; [exact V|congruence|]. destruct (stop_reader s) eqn:S; [|exact I].
      exact (stop_evidence _ _ V S).
    - destruct (try_read s) as [|x|st] eqn:T; cbn [fst].
      + apply move_inv; [exact V|congruence|exact I].
      + apply read_item in T.
        assert (NP : forall k, nth_error (tasks s ++ [Queued x]) k = nth_error (tasks s) k
                               \/ (k = read_count s /\ nth_error (tasks s) k = None
                                   /\ nth_error (tasks s ++ [Queued x]) k = Some (Queued x))
                               \/ (nth_error (tasks s ++ [Queued x]) k = None)).
        { intros k. rewrite <- (m_tasks _ _ V). destruct (Nat.lt_total k (length (tasks s))) as [L|[L|L]].
          - left. now rewrite nth_error_app1.
          - right. left. subst k. split; [auto|]. split; [apply nth_error_None; lia|apply nth_middle].
          - right. right. apply nth_error_None. rewrite app_length. cbn. lia. }
        assert (P : forall i, (exists t, nth_error (tasks s) i = Some t /\ past t) ->
          exists t, nth_error (tasks s ++ [Queued x]) i = Some t /\ past t).
        { intros i (t & E & H). exists t. split; [|exact H].
          rewrite nth_error_app1; [exact E|]. apply nth_error_Some. congruence. }
        constructor; cbn; try apply V; auto.
        * rewrite app_length, (m_tasks _ _ V). cbn. lia.
        * assert (read_count s < length (log s)) by (apply nth_error_Some; congruence). lia.
        * intros k t E. destruct (NP k) as [H|[(-> & _ & H)|H]]; rewrite H in E; try discriminate.
          -- exact (m_task _ _ V k t E).
          -- injection E as <-. exact T.
        * intros i v E. destruct (m_buffer _ _ V i v E). auto.
        * intros i L. apply P. exact (m_done _ _ V i L).
        * intros k t E H. destruct (NP k) as [H1|[(-> & _ & H1)|H1]]; rewrite H1 in E; try discriminate.
          -- exact (m_past _ _ V k t E H).
          -- injection E as <-. destruct H.
        * intros f E. destruct (m_final _ _ V f E) as [H1 H]. split; [lia|exact H].
        * intros k. rewrite (m_mutex _ _ V k).
          destruct (NP k) as [H1|[(-> & H2 & H1)|H1]]; rewrite H1.
          -- reflexivity.
          -- rewrite H2. split; discriminate.
          -- split; [|discriminate]. intros H. apply nth_error_None in H1.
             rewrite app_length in H1. assert (k < length (tasks s)) by (apply nth_error_Some; congruence).
             lia.
        * intros D. destruct (m_destroyed _ _ V D). congruence.
      + destruct (read_closed _ _ T) as [C L]. apply move_inv; [exact V|congruence|].
        split; [exact C|]. pose proof (m_read _ _ V). lia.
    - pose proof (m_reader _ _ V) as H. rewrite R in H. destruct H as [C L].
      destruct (mutex (the_sink s)) eqn:M; [exact V|]. cbn [fst].
      assert (status_at s (read_count s) st) as A by (left; auto).
      destruct (push_status_inv cs s (read_count s) st V M (count_le_read _ _ V) (le_n _) A)
        as (V' & (f & E & _) & _).
      apply move_inv; [exact V'|cbn; congruence|]. right. left. exists f. exact E.
    - destruct (try_read s) eqn:T; cbn [fst]; apply move_inv; try exact V; try congruence; try exact I.
      destruct (read_empty _ T) as [C L]. split; [exact C|]. pose proof (m_read _ _ V). lia.
    - apply move_inv; [exact V|congruence|]. destruct (stop_reader s) eqn:S; [|exact I].
      exact (stop_evidence _ _ V S).
    - apply move_inv; [exact V|congruence|exact I].
  Qed.

  (** ** The tasks *)

  Definition task_ok s (k : nat) (t : task) : Prop :=
    match t with
    | Queued x => nth_error (log s) k = Some x
    | Called r => outcome_at s k = Some r
    | Stopping => exists f, final_offset (the_sink s) = Some f /\ f <= k
    | _ => True
    end.
  Definition accounted s (k : nat) : Prop :=
    k < write_count (the_sink s)
    \/ at_buffer (buffer (the_sink s)) (k - write_count (the_sink s)) <> None
    \/ (exists f, final_offset (the_sink s) = Some f /\ f <= k)
    \/ dropped s = true.

  Lemma past_update (l : list task) k t t' i :
    nth_error l k = Some t -> (past t -> past t') ->
    (exists u, nth_error l i = Some u /\ past u) ->
    exists u, nth_error (update l k t') i = Some u /\ past u.
  Proof.
    intros T P (u & E & H). destruct (Nat.eq_dec k i) as [<-|N].
    - rewrite (nth_update_same _ _ _ _ _ T). exists t'. split; [reflexivity|].
      apply P. congruence.
    - rewrite nth_update_other by exact N. eauto.
  Qed.

  Lemma set_task_inv cs s k t t' :
    inv cs s -> nth_error (tasks s) k = Some t -> t <> Pushing -> t' <> Pushing ->
    (past t -> past t') -> task_ok s k t' -> (past t' -> accounted s k) ->
    inv cs (at_task s k t').
  Proof.
    intros V T N N' P OK A.
    constructor; cbn; try apply V; auto.
    - rewrite update_length. apply V.
    - intros i u E. destruct (Nat.eq_dec k i) as [<-|Q].
      + rewrite (nth_update_same _ _ _ _ _ T) in E. injection E as <-. exact OK.
      + rewrite nth_update_other in E by exact Q. exact (m_task _ _ V i u E).
    - intros i v E. destruct (m_buffer _ _ V i v E) as [H1 H2]. split; [exact H1|].
      eapply past_update; eauto.
    - intros i L. eapply past_update; eauto. exact (m_done _ _ V i L).
    - intros i u E H. destruct (Nat.eq_dec k i) as [<-|Q].
      + rewrite (nth_update_same _ _ _ _ _ T) in E. injection E as <-. exact (A H).
      + rewrite nth_update_other in E by exact Q. exact (m_past _ _ V i u E H).
    - intros i. rewrite (m_mutex _ _ V i). destruct (Nat.eq_dec k i) as [<-|Q].
      + rewrite (nth_update_same _ _ _ _ _ T), T. split; congruence.
      + rewrite nth_update_other by exact Q. reflexivity.
  Qed.

  Lemma fresh_task cs s k t :
    inv cs s -> nth_error (tasks s) k = Some t -> ~ past t ->
    write_count (the_sink s) <= k
    /\ at_buffer (buffer (the_sink s)) (k - write_count (the_sink s)) = None.
  Proof.
    intros V T N. assert (L : write_count (the_sink s) <= k).
    { destruct (Nat.le_gt_cases (write_count (the_sink s)) k) as [L|L]; [exact L|].
      destruct (m_done _ _ V k L) as (u & E & H). congruence. }
    split; [exact L|].
    destruct (at_buffer (buffer (the_sink s)) (k - write_count (the_sink s))) as [v|] eqn:B; [|reflexivity].
    destruct (m_buffer _ _ V _ _ B) as [_ (u & E & H)].
    replace (write_count (the_sink s) + (k - write_count (the_sink s))) with k in E by lia. congruence.
  Qed.

  Lemma push_item_inv cs s k v :
    inv cs s -> nth_error (tasks s) k = Some (Called (Value v)) -> mutex (the_sink s) = None ->
    accepts (the_sink s) k = true ->
    inv cs (at_task (with_sink s (fst (push_item (the_sink s) k v)) (the_writer s)) k Pushing).
  Proof.
    intros V T M AC. unfold push_item. rewrite AC. rewrite accepts_spec in AC. cbn [fst].
    destruct (fresh_task _ _ k _ V T) as [L B]; [cbn; auto|].
    assert (O : ~ over s). { intros (f & E & H & _). specialize (AC f E). lia. }
    pose proof (m_task _ _ V _ _ T) as R. cbn in R.
    constructor; cbn; try apply V; auto.
    - rewrite update_length. apply V.
    - intros i u E. destruct (Nat.eq_dec k i) as [<-|Q].
      + rewrite (nth_update_same _ _ _ _ _ T) in E. injection E as <-. exact I.
      + rewrite nth_update_other in E by exact Q. exact (m_task _ _ V i u E).
    - intros i w E. rewrite at_set_buffer in E. destruct (Nat.eqb_spec i (k - write_count (the_sink s))) as [->|Q].
      + injection E as <-. replace (write_count (the_sink s) + (k - write_count (the_sink s))) with k by lia.
        split; [exact R|]. exists Pushing. rewrite (nth_update_same _ _ _ _ _ T). split; [reflexivity|exact I].
      + destruct (m_buffer _ _ V i w E) as [H1 H2]. split; [exact H1|].
        eapply past_update; eauto. cbn. auto.
    - intros i L'. eapply past_update; eauto; [cbn; auto|]. exact (m_done _ _ V i L').
    - intros i u E H. rewrite at_set_buffer. destruct (Nat.eq_dec k i) as [<-|Q].
      + right. left. rewrite Nat.eqb_refl. discriminate.
      + rewrite nth_update_other in E by exact Q. destruct (m_past _ _ V i u E H) as [H1|[H1|H1]]; auto.
        right. left. destruct (_ =? _); [discriminate|exact H1].
    - intros f E. destruct (m_final _ _ V f E) as [H1 [(H2 & H3 & H4)|(H2 & H3 & H4)]].
      + specialize (AC f E). lia.
      + split; [exact H1|]. right. split; [exact H2|]. split; [exact H3|]. discriminate.
    - discriminate.
    - intros i. destruct (Nat.eq_dec k i) as [<-|Q].
      + rewrite (nth_update_same _ _ _ _ _ T). split; reflexivity.
      + rewrite nth_update_other by exact Q. rewrite <- (m_mutex _ _ V i), M. split; congruence.
    - intros st E. destruct (m_closer _ _ V st E) as [H|[H|[H H']]]; auto. contradiction.
  Qed.

  Lemma exit_inv cs s k :
    inv cs s -> nth_error (tasks s) k = Some Pushing ->
    at_buffer (buffer (the_sink s)) 0 = None ->
    inv cs (fst (let '(k', w', r) :=
      match final_offset (the_sink s) with
      | Some f =>
          if write_count (the_sink s) =? f
          then (Sink (Some 0) OK (write_count (the_sink s)) (buffer (the_sink s)) None,
                try_close (the_writer s) (final_status (the_sink s)), Returns false)
          else (Sink (Some f) (final_status (the_sink s)) (write_count (the_sink s))
                  (buffer (the_sink s)) None, the_writer s, Returns true)
      | None => (Sink None (final_status (the_sink s)) (write_count (the_sink s))
                   (buffer (the_sink s)) None, the_writer s, Returns true)
      end in
      (at_task (with_sink s k' w') k
         (match r with Again => Pushing | Returns true => Finished | Returns false => Stopping end),
       Done))).
  Proof.
    intros V T FR. pose proof (proj2 (m_mutex _ _ V k) T) as M.
    assert (O : ~ over s). { intros (f & _ & _ & H). congruence. }
    assert (U : forall t' i, nth_error (update (tasks s) k t') i =
      if i =? k then Some t' else nth_error (tasks s) i).
    { intros t' i. destruct (Nat.eqb_spec i k) as [->|Q].
      - exact (nth_update_same _ _ _ _ _ T).
      - apply nth_update_other. congruence. }
    assert (P : forall t' i, past t' -> (exists u, nth_error (tasks s) i = Some u /\ past u) ->
      exists u, nth_error (update (tasks s) k t') i = Some u /\ past u).
    { intros t' i H. eapply past_update; eauto. }
    assert (MX : forall t', t' <> Pushing -> forall i, None = Some i <->
      nth_error (update (tasks s) k t') i = Some Pushing).
    { intros t' N i. rewrite (U t' i). split; [discriminate|].
      destruct (Nat.eqb_spec i k); [congruence|]. intros H. apply (m_mutex _ _ V) in H. congruence. }
    assert (KEEP : final_offset (the_sink s) <> Some (write_count (the_sink s)) ->
      inv cs (at_task (with_sink s (Sink (final_offset (the_sink s)) (final_status (the_sink s))
        (write_count (the_sink s)) (buffer (the_sink s)) None) (the_writer s)) k Finished)).
    { intros NE. unfold at_task, with_sink. cbn.
      constructor; cbn; try apply V; auto.
      - rewrite update_length. apply V.
      - intros i u E. rewrite U in E. destruct (Nat.eqb_spec i k) as [->|Q].
        + injection E as <-. exact I.
        + exact (m_task _ _ V i u E).
      - intros i w E. destruct (m_buffer _ _ V i w E) as [H1 H2].
        split; [exact H1|]. apply P; [exact I|exact H2].
      - intros i L. apply P; [exact I|]. exact (m_done _ _ V i L).
      - intros i u E H. rewrite U in E. destruct (Nat.eqb_spec i k) as [->|Q].
        + exact (m_past _ _ V k Pushing T I).
        + exact (m_past _ _ V i u E H).
      - intros f E. destruct (m_final _ _ V f E) as [H1 [(H2 & H3 & H4)|(H2 & H3 & H4)]]; [congruence|].
        split; [exact H1|]. right. split; [exact H2|]. split; [exact H3|]. congruence.
      - apply MX. discriminate.
      - intros st E. destruct (m_closer _ _ V st E) as [H|[H|[H H']]]; auto. contradiction. }
    destruct (final_offset (the_sink s)) as [f|] eqn:FO; [|apply KEEP; discriminate].
    destruct (Nat.eqb_spec (write_count (the_sink s)) f) as [EQ|NE]; [|apply KEEP; congruence].
    clear KEEP. cbn [fst].
    destruct (m_final _ _ V f FO) as [H1 [(H2 & H3 & H4)|(H2 & H3 & H4)]]; [congruence|].
    assert (OV : forall w, over (at_task (with_sink s (Sink (Some 0) OK (write_count (the_sink s))
      (buffer (the_sink s)) None) w) k Stopping)).
    { intros w. exists 0. cbn. split; [reflexivity|]. split; [lia|reflexivity]. }
    unfold try_close. destruct (flag (the_writer s)) eqn:F.
    - constructor; cbn; try apply V; auto.
      + rewrite update_length. apply V.
      + intros i u E. rewrite U in E. destruct (Nat.eqb_spec i k) as [->|Q].
        * injection E as <-. exists 0. split; [reflexivity|lia].
        * pose proof (m_task _ _ V i u E) as H. destruct u; auto. exists 0. split; [reflexivity|lia].
      + intros i w E. destruct (m_buffer _ _ V i w E) as [H5 H6].
        split; [exact H5|]. apply P; [exact I|exact H6].
      + intros i L. apply P; [exact I|]. exact (m_done _ _ V i L).
      + intros i u E H. right. right. left. exists 0. split; [reflexivity|lia].
      + intros f' [= <-]. split; [lia|]. left. split; [auto|split; [reflexivity|lia]].
      + apply MX. discriminate.
      + intros st E. destruct (m_closer _ _ V st E) as [H|[H|[H H']]]; auto.
      + intros H. right. eauto.
      + pose proof (m_reader _ _ V) as R. destruct (reader s); eauto.
    - destruct (m_flag _ _ V F) as [F1 F2].
      constructor; cbn; try apply V; auto.
      + rewrite update_length. apply V.
      + intros i u E. rewrite U in E. destruct (Nat.eqb_spec i k) as [->|Q].
        * injection E as <-. exists 0. split; [reflexivity|lia].
        * pose proof (m_task _ _ V i u E) as H. destruct u; auto. exists 0. split; [reflexivity|lia].
      + intros i w E. destruct (m_buffer _ _ V i w E) as [H5 H6].
        split; [exact H5|]. apply P; [exact I|exact H6].
      + intros i L. apply P; [exact I|]. exact (m_done _ _ V i L).
      + intros i u E H. right. right. left. exists 0. split; [reflexivity|lia].
      + intros f' [= <-]. split; [lia|]. left. split; [auto|split; [reflexivity|lia]].
      + apply MX. discriminate.
      + intros st [E|E]; [|congruence]. right. right. assert (st = final_status (the_sink s)) as -> by congruence.
        split; [|apply OV]. rewrite EQ. exact H3.
      + discriminate.
      + intros _ _. left. discriminate.
      + intros H. right. eauto.
      + pose proof (m_reader _ _ V) as R. destruct (reader s); eauto.
      + intros D. destruct (m_destroyed _ _ V D). auto.
  Qed.

  Lemma nth_ext (A : Type) (l m : list A) : (forall i, nth_error l i = nth_error m i) -> l = m.
  Proof.
    revert m. induction l as [|x l IH]; intros [|y m] H.
    - reflexivity.
    - specialize (H 0). discriminate.
    - specialize (H 0). discriminate.
    - f_equal; [specialize (H 0); cbn in H; congruence|]. apply IH. intros i. exact (H (S i)).
  Qed.

  Lemma push_round_inv cs s k :
    inv cs s -> nth_error (tasks s) k = Some Pushing ->
    inv cs (fst (task_step functor s k Pushing)).
  Proof.
    intros V T. pose proof (proj2 (m_mutex _ _ V k) T) as M.
    assert (O : ~ over s). { intros (f & _ & _ & H). congruence. }
    assert (U : forall t' i, past t' -> nth_error (update (tasks s) k t') i =
      if i =? k then Some t' else nth_error (tasks s) i).
    { intros t' i _. destruct (Nat.eqb_spec i k) as [->|Q].
      - exact (nth_update_same _ _ _ _ _ T).
      - apply nth_update_other. congruence. }
    assert (US : update (tasks s) k Pushing = tasks s).
    { apply nth_ext. intros i. rewrite U by exact I. destruct (Nat.eqb_spec i k); congruence. }
    assert (P : forall t' i, past t' -> (exists u, nth_error (tasks s) i = Some u /\ past u) ->
      exists u, nth_error (update (tasks s) k t') i = Some u /\ past u).
    { intros t' i H. eapply past_update; eauto. }
    assert (MX : forall t', t' <> Pushing -> past t' -> forall i, None = Some i <->
      nth_error (update (tasks s) k t') i = Some Pushing).
    { intros t' N Pt i. rewrite (U t' i Pt). split; [discriminate|].
      destruct (Nat.eqb_spec i k); [congruence|]. intros H. apply (m_mutex _ _ V) in H. congruence. }
    unfold task_step, push_round.
    destruct (buffer (the_sink s)) as [|[v|] rest] eqn:B.
    2: { unfold try_write.
      destruct (m_buffer _ _ V 0 v) as [RV (t0 & T0 & P0)]; [rewrite B; reflexivity|].
      rewrite Nat.add_0_r in RV, T0.
      destruct (if expired (the_writer s) then None else match out_closed (the_writer s) with
        Some _ => None | None => Some tt end) as [[]|] eqn:W.
      - destruct (expired (the_writer s)) eqn:X; [discriminate|].
        destruct (out_closed (the_writer s)) eqn:C; [discriminate|]. cbn [fst].
        unfold at_task, with_sink. cbn. rewrite US, M.
        constructor; cbn; try apply V; auto.
        + rewrite app_length, (m_out _ _ V). cbn. lia.
        + intros i w E. destruct (Nat.lt_total i (length (out (the_writer s)))) as [L|[L|L]].
          * rewrite nth_error_app1 in E by exact L. exact (m_value _ _ V i w E).
          * rewrite L, nth_middle in E. injection E as <-. rewrite L, (m_out _ _ V). exact RV.
          * exfalso. assert (i < length (out (the_writer s) ++ [v])) by (apply nth_error_Some; congruence).
            rewrite app_length in *. cbn in *. lia.
        + intros i w E. destruct (m_buffer _ _ V (S i) w) as [H1 H2]; [rewrite B; exact E|].
          rewrite Nat.add_succ_r in H1, H2. split; [exact H1|exact H2].
        + intros i L. destruct (Nat.eq_dec i (write_count (the_sink s))) as [->|Q]; [eauto|].
          apply (m_done _ _ V). lia.
        + intros i u E H. destruct (m_past _ _ V i u E H) as [H1|[H1|H1]]; [lia| |auto].
          destruct (Nat.le_gt_cases i (write_count (the_sink s))) as [L|L]; [lia|].
          right. left. rewrite B in H1.
          replace (i - write_count (the_sink s)) with (S (i - S (write_count (the_sink s)))) in H1 by lia.
          exact H1.
        + intros f E. destruct (m_final _ _ V f E) as [H1 [(H2 & H3 & H4)|(H2 & H3 & H4)]]; [congruence|].
          split; [exact H1|]. right. split; [|split; [exact H3|discriminate]].
          destruct (Nat.eq_dec (write_count (the_sink s)) f) as [Q|Q]; [|lia].
          exfalso. subst f. destruct H3 as [[H3 _]|(e & H3 & _)].
          * unfold outcome_at in RV. replace (nth_error (log s) (write_count (the_sink s))) with (@None value) in RV; [discriminate|].
            symmetry. apply nth_error_None. lia.
          * congruence.
        + discriminate.
        + intros i. rewrite <- (m_mutex _ _ V i), M. reflexivity.
        + intros st [E|E]; [|congruence]. destruct (m_closer _ _ V st (or_introl E)) as [H|[H|[H H']]]; auto.
          contradiction.
        + intros F. destruct (m_flag _ _ V F). auto.
        + intros F X'. destruct (m_flagged _ _ V F X); [auto|congruence].
      - replace (if expired (the_writer s) then None
          else match out_closed (the_writer s) with
               | Some _ => None
               | None => Some (Writer (out (the_writer s) ++ [v]) (flag (the_writer s)) (closer (the_writer s))
                           (out_closed (the_writer s)) (expired (the_writer s)))
               end) with (@None (writer result error)).
        2: { destruct (expired (the_writer s)); [reflexivity|].
             destruct (out_closed (the_writer s)); [reflexivity|discriminate]. }
        cbn [fst]. unfold at_task, with_sink. cbn.
        constructor; cbn; try apply V; auto.
        + rewrite update_length. apply V.
        + intros i u E. rewrite U in E by exact I. destruct (Nat.eqb_spec i k) as [->|Q].
          * injection E as <-. exists 0. split; [reflexivity|lia].
          * pose proof (m_task _ _ V i u E) as H. destruct u; auto. exists 0. split; [reflexivity|lia].
        + intros i w E. rewrite <- B in E. destruct (m_buffer _ _ V i w E) as [H1 H2].
          split; [exact H1|]. apply P; [exact I|exact H2].
        + intros i L. apply P; [exact I|]. exact (m_done _ _ V i L).
        + intros i u E H. right. right. left. exists 0. split; [reflexivity|lia].
        + intros f [= <-]. split; [lia|]. left. split; [|split; [reflexivity|lia]].
          destruct (expired (the_writer s)) eqn:X; [auto|].
          destruct (out_closed (the_writer s)) eqn:C; [|discriminate].
          left. destruct (flag (the_writer s)) eqn:F; [reflexivity|].
          destruct (m_flag _ _ V F). congruence.
        + intros _ H. exfalso. apply H. exists 0. cbn. split; [reflexivity|]. split; [lia|reflexivity].
        + apply MX; [discriminate|exact I].
        + intros st E. destruct (m_closer _ _ V st E) as [H|[H|[H H']]]; auto. contradiction.
        + intros H. right. eauto.
        + pose proof (m_reader _ _ V) as R. destruct (reader s); eauto. }
    all: rewrite <- B; apply exit_inv; auto; rewrite B; reflexivity.
  Qed.

  Lemma task_inv cs s k : inv cs s -> inv cs (fst (step s (StepTask k))).
  Proof.
    intros V. cbn [MapModel.step]. destruct (nth_error (tasks s) k) as [t|] eqn:T; [|exact V].
    pose proof (m_task _ _ V k t T) as OK.
    assert (LK : k < read_count s).
    { rewrite <- (m_tasks _ _ V). apply nth_error_Some. congruence. }
    destruct t as [x|[v|e]| | |].
    - cbn [task_step fst]. destruct (accepts (the_sink s) k) eqn:AC.
      + apply (set_task_inv _ _ _ _ _ V T); try discriminate; cbn; try tauto.
        unfold outcome_at. rewrite OK. reflexivity.
      + apply (set_task_inv _ _ _ _ _ V T); try discriminate; cbn; try tauto.
        intros _. right. right. left. exact (rejects_spec _ _ AC).
    - cbn [task_step]. destruct (mutex (the_sink s)) eqn:M; [exact V|].
      destruct (accepts (the_sink s) k) eqn:AC.
      + pose proof (push_item_inv _ _ _ _ V T M AC) as H. unfold push_item in *. rewrite AC in *. exact H.
      + unfold push_item. rewrite AC. cbn [fst snd].
        replace (with_sink s (the_sink s) (the_writer s)) with s by (destruct s; reflexivity).
        apply (set_task_inv _ _ _ _ _ V T); try discriminate; cbn; try tauto.
        * exact (rejects_spec _ _ AC).
        * intros _. right. right. left. exact (rejects_spec _ _ AC).
    - cbn [task_step]. destruct (mutex (the_sink s)) eqn:M; [exact V|]. cbn [fst].
      destruct (fresh_task _ _ k _ V T) as [L _]; [cbn; auto|].
      assert (status_at s k (Err e)) as A by (right; exists e; auto).
      destruct (push_status_inv cs s k (Err e) V M L (Nat.lt_le_incl _ _ LK) A) as (V' & F & _).
      eapply set_task_inv; [exact V'|exact T|discriminate|discriminate|cbn; tauto|exact F|].
      intros _. right. right. left. exact F.
    - exact (push_round_inv _ _ _ V T).
    - cbn [task_step fst].
      assert (inv cs (stopped s)) as V'.
      { constructor; cbn; try apply V; auto. intros _. right. destruct OK as (f & E & _). eauto. }
      eapply set_task_inv; [exact V'|exact T|discriminate|discriminate|cbn; tauto|exact I|].
      intros _. right. right. left. exact OK.
    - exact V.
  Qed.

  (** ** Runs *)

  Fixpoint cancels (ops : list op) : list error :=
    match ops with
    | [] => []
    | Cancel e :: ops => e :: cancels ops
    | _ :: ops => cancels ops
    end.

  Lemma in_cancels ops e : In e (cancels ops) <-> In (Cancel e) ops.
  Proof.
    clear functor result.
    induction ops as [|o ops IH]; [reflexivity|].
    destruct o; cbn; rewrite ?IH; split; intros H; try tauto;
      destruct H as [H|H]; auto; try discriminate; left; congruence.
  Qed.

  Lemma step_inv cs s (o : op) :
    inv cs s -> inv (cs ++ cancels [o]) (fst (step s o)).
  Proof.
    intros V. destruct o; cbn [cancels]; rewrite ?app_nil_r.
    - apply env_write_inv, V.
    - apply env_close_inv, V.
    - apply reader_inv, V.
    - apply task_inv, V.
    - apply drop_task_inv, V.
    - apply drop_reader_inv, V.
    - apply finish_close_inv, V.
    - apply cancel_inv, V.
    - apply finish_cancel_inv, V.
    - apply expire_inv, V.
    - apply destroy_inv, V.
  Qed.

  Lemma run_app ops more s : run s (ops ++ more) = run (run s ops) more.
  Proof. revert s. induction ops as [|o ops IH]; intros s; cbn; [reflexivity|apply IH]. Qed.

  Lemma run_inv cs s ops : inv cs s -> inv (cs ++ cancels ops) (run s ops).
  Proof.
    revert cs s. induction ops as [|o ops IH]; intros cs s V; cbn [MapModel.run].
    - cbn. rewrite app_nil_r. exact V.
    - replace (cancels (o :: ops)) with (cancels [o] ++ cancels ops) by (destruct o; reflexivity).
      rewrite app_assoc. apply IH, step_inv, V.
  Qed.

  Lemma reachable l st ops : inv (cancels ops) (run (start_map l st) ops).
  Proof. apply (run_inv [] _ ops), inv_start. Qed.

  Lemma step_input s o :
    (log (fst (step s o)), closed (fst (step s o))) = input_change (log s, closed s) o.
  Proof.
    unfold input_change. cbn [fst snd].
    destruct o; cbn [MapModel.step];
      try (destruct (closed s) eqn:C; cbn; rewrite ?C; reflexivity).
    - unfold reader_step. destruct (reader s); try reflexivity.
      + destruct (try_read s); reflexivity.
      + destruct (mutex (the_sink s)); reflexivity.
      + destruct (try_read s); reflexivity.
    - destruct (nth_error (tasks s) k) as [[|[]| | |]|]; try reflexivity; cbn [task_step].
      + destruct (mutex (the_sink s)); reflexivity.
      + destruct (mutex (the_sink s)); reflexivity.
      + destruct (push_round (the_sink s) (the_writer s)) as [[k' w'] r]. reflexivity.
    - destruct (nth_error (tasks s) k) as [[]|]; reflexivity.
    - destruct (reader s); reflexivity.
    - destruct (closer (the_writer s)); reflexivity.
    - destruct (cancelling s); [reflexivity|]. destruct (destroyed s); reflexivity.
    - destruct (cancelling s); reflexivity.
    - destruct (reader s); try reflexivity. destruct (cancelling s); try reflexivity.
      destruct (closer (the_writer s)); try reflexivity.
      destruct (destroyed s || negb (forallb is_finished (tasks s))); reflexivity.
  Qed.

  Lemma run_input s ops :
    (log (run s ops), closed (run s ops)) = input_after (log s, closed s) ops.
  Proof.
    unfold input_after. revert s. induction ops as [|o ops IH]; intros s; cbn [MapModel.run fold_left].
    - reflexivity.
    - rewrite IH, step_input. reflexivity.
  Qed.

  Lemma step_dropped s o :
    dropped (fst (step s o)) = true -> dropped s = true \/ drops o.
  Proof.
    destruct o; cbn [MapModel.step drops]; try (intros; right; exact I);
      try (destruct (closed s); cbn; auto; fail).
    - unfold reader_step. destruct (reader s); cbn; auto.
      + destruct (try_read s); cbn; auto.
      + destruct (mutex (the_sink s)); cbn; auto.
      + destruct (try_read s); cbn; auto.
    - destruct (nth_error (tasks s) k) as [[|[]| | |]|]; cbn [task_step]; cbn; auto.
      + destruct (mutex (the_sink s)); cbn; auto.
      + destruct (mutex (the_sink s)); cbn; auto.
      + destruct (push_round (the_sink s) (the_writer s)) as [[k' w'] r]. cbn. auto.
    - destruct (closer (the_writer s)); cbn; auto.
    - destruct (cancelling s); [cbn; auto|]. destruct (destroyed s); cbn; auto.
    - destruct (cancelling s); cbn; auto.
    - destruct (reader s); cbn; auto. destruct (cancelling s); cbn; auto.
      destruct (closer (the_writer s)); cbn; auto.
      destruct (destroyed s || negb (forallb is_finished (tasks s))); cbn; auto.
  Qed.

  Lemma run_dropped s ops :
    dropped (run s ops) = true -> dropped s = true \/ Exists drops ops.
  Proof.
    revert s. induction ops as [|o ops IH]; intros s H; cbn [MapModel.run] in H; [auto|].
    destruct (IH _ H) as [H1|H1]; [|auto]. destruct (step_dropped _ _ H1); auto.
  Qed.

  Definition writer_kept (w w' : writer result error) : Prop :=
    (exists rest, out w' = out w ++ rest)
    /\ (forall st, out_closed w = Some st -> closer w = None /\ flag w = true ->
        out_closed w' = Some st /\ out w' = out w /\ closer w' = None /\ flag w' = true).
  Lemma kept_refl w : writer_kept w w.
  Proof. split; [exists []; now rewrite app_nil_r|]. intros st E [H1 H2]. auto. Qed.
  Lemma kept_try_close w st : writer_kept w (try_close w st).
  Proof.
    unfold try_close. destruct (flag w) eqn:F; [apply kept_refl|].
    split; [exists []; now rewrite app_nil_r|]. intros st' E [H1 H2]. congruence.
  Qed.
  Lemma kept_finish w st : closer w = Some st -> writer_kept w (finish_close w st).
  Proof.
    intros C. split; [exists []; now rewrite app_nil_r|]. intros st' E [H1 H2]. congruence.
  Qed.
  Lemma kept_try_write w v w' : try_write w v = Some w' -> writer_kept w w'.
  Proof.
    unfold try_write. destruct (expired w); [discriminate|].
    destruct (out_closed w) eqn:C; [discriminate|]. intros [= <-].
    split; [exists [v]; reflexivity|]. intros st E. congruence.
  Qed.

  Lemma step_kept s o : writer_kept (the_writer s) (the_writer (fst (step s o))).
  Proof.
    destruct o; cbn [MapModel.step]; try (destruct (closed s); apply kept_refl).
    - unfold reader_step. destruct (reader s); try apply kept_refl.
      + destruct (try_read s); apply kept_refl.
      + destruct (mutex (the_sink s)); [apply kept_refl|]. cbn. unfold push_status.
        destruct (accepts _ _); [|apply kept_refl]. destruct (_ =? _); [apply kept_try_close|apply kept_refl].
      + destruct (try_read s); apply kept_refl.
    - destruct (nth_error (tasks s) k) as [[|[]| | |]|]; cbn [task_step]; try apply kept_refl.
      + destruct (mutex (the_sink s)); apply kept_refl.
      + destruct (mutex (the_sink s)); [apply kept_refl|]. cbn. unfold push_status.
        destruct (accepts _ _); [|apply kept_refl]. destruct (_ =? _); [apply kept_try_close|apply kept_refl].
      + unfold push_round. destruct (buffer (the_sink s)) as [|[v|] rest].
        * destruct (final_offset (the_sink s)) as [f|]; [destruct (_ =? f)|]; cbn;
            try apply kept_refl; apply kept_try_close.
        * destruct (try_write (the_writer s) v) as [w'|] eqn:W; cbn; [|apply kept_refl].
          exact (kept_try_write _ _ _ W).
        * destruct (final_offset (the_sink s)) as [f|]; [destruct (_ =? f)|]; cbn;
            try apply kept_refl; apply kept_try_close.
    - destruct (nth_error (tasks s) k) as [[]|]; apply kept_refl.
    - destruct (reader s); apply kept_refl.
    - destruct (closer (the_writer s)) eqn:C; [|apply kept_refl]. apply kept_finish, C.
    - destruct (cancelling s); [apply kept_refl|]. destruct (destroyed s); apply kept_refl.
    - destruct (cancelling s); [apply kept_try_close|apply kept_refl].
    - cbn. split; [exists []; now rewrite app_nil_r|]. cbn. intros st E [H1 H2]. auto.
    - destruct (reader s); try apply kept_refl. destruct (cancelling s); try apply kept_refl.
      destruct (closer (the_writer s)) eqn:C; try apply kept_refl.
      destruct (destroyed s || negb (forallb is_finished (tasks s))); [apply kept_refl|]. cbn.
      destruct (flag (the_writer s)) eqn:F; [apply kept_refl|].
      unfold try_close. rewrite F. split; [exists []; cbn; now rewrite app_nil_r|].
      intros st' E [H1 H2]. congruence.
  Qed.

  Definition closes_once (w : writer result error) : Prop :=
    out_closed w <> None -> closer w = None /\ flag w = true.

  Lemma step_closes_once s o :
    (flag (the_writer s) = false -> closer (the_writer s) = None /\ out_closed (the_writer s) = None) ->
    closes_once (the_writer s) -> closes_once (the_writer (fst (step s o))).
  Proof.
    intros FL V.
    assert (TC : forall st, closes_once (try_close (the_writer s) st)).
    { intros st. unfold try_close. destruct (flag (the_writer s)) eqn:F; [exact V|].
      destruct (FL eq_refl) as [_ C]. intros H. cbn in H. congruence. }
    destruct o; cbn [MapModel.step]; try (destruct (closed s); exact V).
    - unfold reader_step. destruct (reader s); try exact V.
      + destruct (try_read s); exact V.
      + destruct (mutex (the_sink s)); [exact V|]. cbn. unfold push_status.
        destruct (accepts _ _); [|exact V]. destruct (_ =? _); [apply TC|exact V].
      + destruct (try_read s); exact V.
    - destruct (nth_error (tasks s) k) as [[|[]| | |]|]; cbn [task_step]; try exact V.
      + destruct (mutex (the_sink s)); exact V.
      + destruct (mutex (the_sink s)); [exact V|]. cbn. unfold push_status.
        destruct (accepts _ _); [|exact V]. destruct (_ =? _); [apply TC|exact V].
      + unfold push_round. destruct (buffer (the_sink s)) as [|[v|] rest].
        * destruct (final_offset (the_sink s)) as [f|]; [destruct (_ =? f)|]; cbn;
            try exact V; apply TC.
        * unfold try_write. destruct (expired (the_writer s)); [exact V|].
          destruct (out_closed (the_writer s)) eqn:C; [exact V|]. cbn. intros H. cbn in H. congruence.
        * destruct (final_offset (the_sink s)) as [f|]; [destruct (_ =? f)|]; cbn;
            try exact V; apply TC.
    - destruct (nth_error (tasks s) k) as [[]|]; exact V.
    - destruct (reader s); exact V.
    - destruct (closer (the_writer s)) eqn:C; [|exact V]. cbn. intros H. cbn. split; [reflexivity|].
      destruct (flag (the_writer s)) eqn:F; [reflexivity|]. destruct (FL eq_refl). congruence.
    - destruct (cancelling s); [exact V|]. destruct (destroyed s); exact V.
    - destruct (cancelling s); [apply TC|exact V].
    - destruct (reader s); try exact V. destruct (cancelling s); try exact V.
      destruct (closer (the_writer s)) eqn:C; try exact V.
      destruct (destroyed s || negb (forallb is_finished (tasks s))); [exact V|]. cbn.
      destruct (flag (the_writer s)) eqn:F; [exact V|].
      unfold try_close. rewrite F. intros _. cbn. auto.
  Qed.

  Lemma run_closes_once cs s ops :
    inv cs s -> closes_once (the_writer s) -> closes_once (the_writer (run s ops)).
  Proof.
    revert cs s. induction ops as [|o ops IH]; intros cs s V C; cbn [MapModel.run]; [exact C|].
    eapply IH; [apply step_inv, V|]. apply step_closes_once; [exact (m_flag _ _ V)|exact C].
  Qed.

  Lemma run_kept s ops : writer_kept (the_writer s) (the_writer (run s ops)).
  Proof.
    revert s. induction ops as [|o ops IH]; intros s; cbn [MapModel.run]; [apply kept_refl|].
    destruct (step_kept s o) as [(r1 & E1) H1]. destruct (IH (fst (step s o))) as [(r2 & E2) H2].
    split; [exists (r1 ++ r2); rewrite E2, E1, app_assoc; reflexivity|].
    intros st E H. destruct (H1 st E H) as (H3 & H4 & H5 & H6).
    destruct (H2 st H3 (conj H5 H6)) as (H7 & H8 & H9). split; [exact H7|]. split; [congruence|exact H9].
  Qed.

  Lemma output_final l st ops more :
    let s := run (start_map l st) ops in
    let s' := run (start_map l st) (ops ++ more) in
    (exists rest, out (the_writer s') = out (the_writer s) ++ rest)
    /\ (forall c, out_closed (the_writer s) = Some c ->
        out_closed (the_writer s') = Some c /\ out (the_writer s') = out (the_writer s)).
  Proof.
    cbv zeta. rewrite run_app.
    destruct (run_kept (run (start_map l st) ops) more) as [H1 H2]. split; [exact H1|].
    intros c E. destruct (H2 c E) as (H3 & H4 & _); [|auto].
    apply (run_closes_once [] (start_map l st) ops); [apply inv_start| |congruence].
    intros H. cbn in H. congruence.
  Qed.

  (** ** What the output is *)

  Lemma mapped_split k l c o :
    (forall i v, nth_error o i = Some v -> exists x, nth_error l i = Some x /\ functor (k + i) x = Value v) ->
    mapped functor k l c =
    (o ++ fst (mapped functor (k + length o) (skipn (length o) l) c),
     snd (mapped functor (k + length o) (skipn (length o) l) c)).
  Proof.
    revert k l. induction o as [|v o IH]; intros k l H.
    - cbn. rewrite Nat.add_0_r. apply surjective_pairing.
    - destruct (H 0 v eq_refl) as (x & E & F). destruct l as [|y l]; [discriminate|].
      cbn in E. injection E as ->. cbn [mapped length skipn]. rewrite Nat.add_0_r in F. rewrite F.
      rewrite IH with (k := S k).
      + replace (S k + length o) with (k + S (length o)) by lia. reflexivity.
      + intros i w E. destruct (H (S i) w E) as (z & E1 & E2). exists z. split; [exact E1|].
        replace (S k + i) with (k + S i) by lia. exact E2.
  Qed.

  Lemma out_split cs s :
    inv cs s ->
    mapped functor 0 (log s) (closed s) =
    (out (the_writer s) ++ fst (mapped functor (write_count (the_sink s)) (skipn (write_count (the_sink s)) (log s)) (closed s)),
     snd (mapped functor (write_count (the_sink s)) (skipn (write_count (the_sink s)) (log s)) (closed s))).
  Proof.
    intros V. rewrite <- (m_out _ _ V). apply (mapped_split 0). intros i v E.
    pose proof (m_value _ _ V i v E) as H. unfold outcome_at in H.
    destruct (nth_error (log s) i) as [x|]; [|discriminate]. exists x. split; [reflexivity|].
    cbn. congruence.
  Qed.

  Lemma skipn_nth (A : Type) (l : list A) n x :
    nth_error l n = Some x -> skipn n l = x :: skipn (S n) l.
  Proof.
    revert n. induction l as [|y l IH]; intros [|n] E; try discriminate; cbn in *.
    - congruence.
    - rewrite (IH n E). reflexivity.
  Qed.

  Lemma complete cs s st :
    inv cs s -> status_at s (write_count (the_sink s)) st ->
    mapped functor 0 (log s) (closed s) = (out (the_writer s), Some st).
  Proof.
    intros V H. rewrite (out_split _ _ V). destruct H as [[H C]|(e & H & ->)].
    - rewrite H, skipn_all. cbn. rewrite app_nil_r, C. reflexivity.
    - unfold outcome_at in H. destruct (nth_error (log s) (write_count (the_sink s))) as [x|] eqn:E; [|discriminate].
      rewrite (skipn_nth _ _ _ _ E). cbn [mapped].
      replace (functor (write_count (the_sink s)) x) with (@Error result error e) by congruence.
      cbn. rewrite app_nil_r. reflexivity.
  Qed.

  Lemma map_order l st ops :
    let s := run (start_map l st) ops in
    let i := input_after (l, st) ops in
    prefix (out (the_writer s)) (fst (mapped functor 0 (fst i) (snd i))).
  Proof.
    cbv zeta. pose proof (run_input (start_map l st) ops) as E. cbn in E. rewrite <- E. cbn [fst snd].
    rewrite (out_split _ _ (reachable l st ops)). eexists. reflexivity.
  Qed.

  Lemma map_closed l st ops c :
    let s := run (start_map l st) ops in
    let i := input_after (l, st) ops in
    out_closed (the_writer s) = Some c ->
    mapped functor 0 (fst i) (snd i) = (out (the_writer s), Some c)
    \/ (exists e, In (Cancel e) ops /\ c = Err e)
    \/ (c = Err orphaned /\ Exists drops ops).
  Proof.
    cbv zeta. pose proof (run_input (start_map l st) ops) as E. cbn in E. rewrite <- E. cbn [fst snd].
    intros C. pose proof (reachable l st ops) as V.
    destruct (m_closer _ _ V c (or_intror C)) as [(e & H & ->)|[[-> H]|[H _]]].
    - right. left. exists e. split; [apply in_cancels; exact H|reflexivity].
    - right. right. split; [reflexivity|]. destruct (run_dropped _ _ H) as [H'|H']; [discriminate|exact H'].
    - left. exact (complete _ _ _ V H).
  Qed.

  Lemma step_expired s o :
    expired (the_writer (fst (step s o))) = true -> expired (the_writer s) = true \/ o = Expire.
  Proof.
    assert (TC : forall st, expired (try_close (the_writer s) st) = expired (the_writer s)).
    { intros st. unfold try_close. destruct (flag (the_writer s)); reflexivity. }
    destruct o; cbn [MapModel.step]; auto; try (destruct (closed s); cbn; auto; fail).
    - unfold reader_step. destruct (reader s); cbn; auto.
      + destruct (try_read s); cbn; auto.
      + destruct (mutex (the_sink s)); cbn; auto. unfold push_status.
        destruct (accepts _ _); [destruct (_ =? _)|]; cbn; rewrite ?TC; auto.
      + destruct (try_read s); cbn; auto.
    - destruct (nth_error (tasks s) k) as [[|[]| | |]|]; cbn [task_step]; auto.
      + destruct (mutex (the_sink s)); cbn; auto.
      + destruct (mutex (the_sink s)); cbn; auto. unfold push_status.
        destruct (accepts _ _); [destruct (_ =? _)|]; cbn; rewrite ?TC; auto.
      + unfold push_round. destruct (buffer (the_sink s)) as [|[v|] rest].
        * destruct (final_offset (the_sink s)) as [f|]; [destruct (_ =? f)|]; cbn; rewrite ?TC; auto.
        * unfold try_write. destruct (expired (the_writer s)) eqn:X; [auto|].
          destruct (out_closed (the_writer s)); cbn; rewrite ?X; auto.
        * destruct (final_offset (the_sink s)) as [f|]; [destruct (_ =? f)|]; cbn; rewrite ?TC; auto.
    - destruct (nth_error (tasks s) k) as [[]|]; cbn; auto.
    - destruct (reader s); cbn; auto.
    - destruct (closer (the_writer s)); cbn; auto.
    - destruct (cancelling s); cbn; auto. destruct (destroyed s); cbn; auto.
    - destruct (cancelling s); cbn; rewrite ?TC; auto.
    - destruct (reader s); cbn; auto. destruct (cancelling s); cbn; auto.
      destruct (closer (the_writer s)); cbn; auto.
      destruct (destroyed s || negb (forallb is_finished (tasks s))); cbn; auto.
      destruct (flag (the_writer s)); cbn; rewrite ?TC; auto.
  Qed.

  Lemma run_expired s ops :
    expired (the_writer (run s ops)) = true -> expired (the_writer s) = true \/ In Expire ops.
  Proof.
    revert s. induction ops as [|o ops IH]; intros s H; cbn [MapModel.run] in H; [auto|].
    destruct (IH _ H) as [H1|H1]; [|cbn; auto]. destruct (step_expired _ _ H1); cbn; auto.
  Qed.

  Lemma quiet_facts cs s :
    inv cs s -> quiet functor orphaned s ->
    Forall (fun t => t = Finished) (tasks s) /\ (reader s = Waiting \/ reader s = Ended)
    /\ closer (the_writer s) = None /\ cancelling s = None.
  Proof.
    intros V Q.
    assert (M : mutex (the_sink s) = None).
    { destruct (mutex (the_sink s)) as [m|] eqn:M; [|reflexivity]. exfalso.
      apply (m_mutex _ _ V) in M. pose proof (Q (StepTask m) I) as H. cbn [MapModel.step] in H.
      rewrite M in H. cbn [task_step] in H.
      destruct (push_round (the_sink s) (the_writer s)) as [[k' w'] r]. discriminate. }
    split; [|split; [|split]].
    - apply Forall_forall. intros t E. apply In_nth_error in E. destruct E as [k E].
      pose proof (Q (StepTask k) I) as H. cbn [MapModel.step] in H. rewrite E in H.
      destruct t as [|[]| | |]; cbn [task_step] in H; try rewrite M in H; try discriminate; [|reflexivity].
      destruct (push_round (the_sink s) (the_writer s)) as [[k' w'] r]. discriminate.
    - pose proof (Q StepReader I) as H. cbn [MapModel.step] in H. unfold reader_step in H.
      destruct (reader s); auto; try discriminate.
      + destruct (try_read s); discriminate.
      + rewrite M in H. discriminate.
      + destruct (try_read s); discriminate.
    - pose proof (Q FinishClose I) as H. cbn [MapModel.step] in H.
      destruct (closer (the_writer s)); [discriminate|reflexivity].
    - pose proof (Q FinishCancel I) as H. cbn [MapModel.step] in H.
      destruct (cancelling s); [discriminate|reflexivity].
  Qed.

  Lemma map_delivers l st ops :
    let s := run (start_map l st) ops in
    let i := input_after (l, st) ops in
    quiet functor orphaned s -> (forall e, ~ In (Cancel e) ops) -> ~ Exists drops ops -> ~ In Expire ops ->
    mapped functor 0 (fst i) (snd i) = (out (the_writer s), out_closed (the_writer s)).
  Proof.
    cbv zeta. pose proof (run_input (start_map l st) ops) as E. cbn in E. rewrite <- E. cbn [fst snd].
    pose proof (reachable l st ops) as V. pose proof (run_dropped (start_map l st) ops) as D.
    pose proof (run_expired (start_map l st) ops) as X.
    assert (C : (forall e, ~ In (Cancel e) ops) -> cancels ops = []).
    { intros H. destruct (cancels ops) as [|e es] eqn:C; [reflexivity|]. exfalso.
      apply (H e). apply in_cancels. rewrite C. cbn. auto. }
    remember (run (start_map l st) ops) as s eqn:ES. clear ES E.
    intros Q NC ND NX. specialize (C NC). rewrite C in V.
    destruct (dropped s) eqn:DS.
    { destruct (D eq_refl) as [H|H]; [discriminate|contradiction]. }
    destruct (expired (the_writer s)) eqn:XS.
    { destruct (X eq_refl) as [H|H]; [discriminate|contradiction]. }
    destruct (quiet_facts _ _ V Q) as (A & R & CL & CA).
    assert (EV : forall c, out_closed (the_writer s) = Some c ->
      status_at s (write_count (the_sink s)) c /\ over s).
    { intros c E. destruct (m_closer _ _ V c (or_intror E)) as [(e & [] & _)|[[_ H]|H]]; [congruence|exact H]. }
    destruct (final_offset (the_sink s)) as [f|] eqn:F.
    - destruct (settled _ _ f V A DS F) as [[H|H] O]; [|congruence].
      destruct (m_flagged _ _ V H XS) as [H1|H1]; [congruence|].
      destruct (out_closed (the_writer s)) as [c|] eqn:OC; [|congruence].
      destruct (EV c eq_refl) as [H2 _]. exact (complete _ _ _ V H2).
    - assert (~ over s) as O by (intros (f & H & _); congruence).
      destruct (out_closed (the_writer s)) as [c|] eqn:OC.
      { exfalso. destruct (EV c eq_refl). contradiction. }
      pose proof (m_reader _ _ V) as H. destruct R as [R|R]; rewrite R in H.
      + destruct H as [H1 H2]. rewrite (out_split _ _ V).
        assert (write_count (the_sink s) = length (log s)) as ->.
        { pose proof (count_le_read _ _ V).
          destruct (Nat.eq_dec (write_count (the_sink s)) (read_count s)) as [Q1|Q1]; [lia|].
          destruct (not_missing _ _ _ V A DS O eq_refl) as (f & Hf & _); [lia|congruence]. }
        rewrite skipn_all, H1. cbn. rewrite app_nil_r. reflexivity.
      + destruct H as [H|[(f & H)|H]]; congruence.
  Qed.

  (** ** The threads end *)

  Definition task_weight (t : task) : nat :=
    match t with Queued _ => 5 | Called _ => 4 | Pushing => 3 | Stopping => 2 | Finished => 0 end.
  Definition is_empty (r : read_result value error) : bool :=
    match r with Empty => true | _ => false end.
  Definition reader_weight s : nat :=
    match reader s with
    | AtTest => 6 | AtRead => 5 | AtPush _ => 4
    | AtSubscribe => if is_empty (try_read s) then 1 else 9
    | Waiting => 0 | InCallback => 8 | InQueue => 7 | Ended => 0
    end.
  Definition work s : nat :=
    10 * (length (log s) - read_count s) + reader_weight s + list_sum (map task_weight (tasks s))
    + (length (log s) - write_count (the_sink s))
    + (if flag (the_writer s) then 0 else 2)
    + match closer (the_writer s) with Some _ => 1 | None => 0 end
    + match cancelling s with Some _ => 3 | None => 0 end.

  Lemma sum_update (l : list task) k t t' :
    nth_error l k = Some t ->
    list_sum (map task_weight (update l k t')) + task_weight t
    = list_sum (map task_weight l) + task_weight t'.
  Proof.
    revert k. induction l as [|u l IH]; intros [|k] E; try discriminate; cbn in E; cbn [update map].
    - rewrite !sum_cons. injection E as ->. lia.
    - rewrite !sum_cons. specialize (IH k E). lia.
  Qed.

  Definition writer_weight (w : writer result error) : nat :=
    (if flag w then 0 else 2) + match closer w with Some _ => 1 | None => 0 end.

  Lemma try_close_weight cs s st :
    inv cs s -> writer_weight (try_close (the_writer s) st) <= writer_weight (the_writer s).
  Proof.
    intros V. unfold try_close, writer_weight. destruct (flag (the_writer s)) eqn:F.
    - rewrite F. lia.
    - destruct (m_flag _ _ V F) as [-> _]. cbn. lia.
  Qed.

  Lemma push_status_weight cs s i st :
    inv cs s ->
    let kw := push_status (the_sink s) (the_writer s) i st in
    writer_weight (snd kw) <= writer_weight (the_writer s)
    /\ write_count (fst kw) = write_count (the_sink s).
  Proof.
    intros V. unfold push_status. destruct (accepts _ _); [|cbn; auto].
    destruct (_ =? _); cbn; split; auto. apply (try_close_weight cs), V.
  Qed.

  Lemma work_eq s : work s =
    10 * (length (log s) - read_count s) + reader_weight s + list_sum (map task_weight (tasks s))
    + (length (log s) - write_count (the_sink s)) + writer_weight (the_writer s)
    + match cancelling s with Some _ => 3 | None => 0 end.
  Proof. unfold work, writer_weight. lia. Qed.

  Lemma internal_work cs s o :
    inv cs s -> internal o -> snd (step s o) = Done -> work (fst (step s o)) < work s.
  Proof.
    intros V IN D. rewrite !work_eq. destruct o; try destruct IN; cbn [MapModel.step] in *.
    - unfold reader_step in *.
      destruct (reader s) as [| |st| | | | |] eqn:R; try discriminate; cbn [fst snd] in *.
      + unfold reader_weight. cbn [at_reader reader]. rewrite R.
        destruct (stop_reader s); cbn [log read_count tasks the_sink the_writer cancelling at_reader]; lia.
      + unfold reader_weight. rewrite R. destruct (try_read s) as [|x|st] eqn:T;
          cbn [fst log read_count reader tasks the_sink the_writer cancelling at_reader].
        * change (try_read (at_reader s AtSubscribe)) with (try_read s). rewrite T. cbn [is_empty]. lia.
        * apply read_item in T.
          assert (read_count s < length (log s)) by (apply nth_error_Some; congruence).
          rewrite map_app, list_sum_app. cbn [map]. rewrite sum_cons. cbn [task_weight].
          replace (list_sum []) with 0 by reflexivity. lia.
        * lia.
      + destruct (mutex (the_sink s)); [discriminate|]. cbn [fst].
        destruct (push_status_weight cs s (read_count s) st V) as [W1 W2].
        unfold reader_weight. rewrite R.
        cbn [log read_count reader tasks the_sink the_writer cancelling at_reader with_sink]. rewrite W2. lia.
      + unfold reader_weight. rewrite R. destruct (try_read s) as [|x|st] eqn:T; cbn [is_empty];
          cbn [fst log read_count reader tasks the_sink the_writer cancelling at_reader]; lia.
      + unfold reader_weight. cbn [at_reader reader]. rewrite R.
        destruct (stop_reader s); cbn [log read_count tasks the_sink the_writer cancelling at_reader]; lia.
      + unfold reader_weight. cbn [at_reader reader]. rewrite R.
        cbn [log read_count tasks the_sink the_writer cancelling at_reader]; lia.
    - destruct (nth_error (tasks s) k) as [t|] eqn:T; [|discriminate].
      assert (LW : forall s' t', tasks s' = update (tasks s) k t' -> log s' = log s ->
        read_count s' = read_count s -> reader s' = reader s -> cancelling s' = cancelling s ->
        closed s' = closed s ->
        task_weight t' + writer_weight (the_writer s') + (length (log s) - write_count (the_sink s'))
        < task_weight t + writer_weight (the_writer s) + (length (log s) - write_count (the_sink s)) ->
        10 * (length (log s') - read_count s') + reader_weight s' + list_sum (map task_weight (tasks s'))
        + (length (log s') - write_count (the_sink s')) + writer_weight (the_writer s')
        + match cancelling s' with Some _ => 3 | None => 0 end <
        10 * (length (log s) - read_count s) + reader_weight s + list_sum (map task_weight (tasks s))
        + (length (log s) - write_count (the_sink s)) + writer_weight (the_writer s)
        + match cancelling s with Some _ => 3 | None => 0 end).
      { intros s' t' E1 E2 E3 E4 E5 E6 H.
        assert (reader_weight s' = reader_weight s) as ->
          by (unfold reader_weight, try_read; rewrite E2, E3, E4, E6; reflexivity).
        rewrite E1, E2, E3, E5. pose proof (sum_update _ _ _ t' T). lia. }
      destruct t as [x|[v|e]| | |]; cbn [task_step] in *; try discriminate.
      + eapply LW; try reflexivity. cbn [fst at_task the_writer the_sink].
        destruct (accepts _ _); cbn [task_weight]; lia.
      + destruct (mutex (the_sink s)); [discriminate|]. eapply LW; try reflexivity.
        cbn [fst at_task with_sink the_writer the_sink]. unfold push_item.
        destruct (accepts _ _); cbn [task_weight fst snd write_count]; lia.
      + destruct (mutex (the_sink s)); [discriminate|]. eapply LW; try reflexivity.
        cbn [fst at_task with_sink the_writer the_sink].
        destruct (push_status_weight cs s k (Err e) V) as [W1 W2]. rewrite W2. cbn [task_weight]. lia.
      + pose proof (try_close_weight cs s (final_status (the_sink s)) V) as TW.
        unfold push_round. destruct (buffer (the_sink s)) as [|[v|] rest] eqn:B.
        * destruct (final_offset (the_sink s)) as [f|]; [destruct (_ =? f)|]; eapply LW; try reflexivity;
            cbn [fst at_task with_sink the_writer the_sink task_weight write_count]; lia.
        * destruct (m_buffer _ _ V 0 v) as [RV _]; [rewrite B; reflexivity|]. rewrite Nat.add_0_r in RV.
          assert (write_count (the_sink s) < length (log s)).
          { unfold outcome_at in RV. apply nth_error_Some. intros H. rewrite H in RV. discriminate. }
          unfold try_write. destruct (expired (the_writer s)).
          -- eapply LW; try reflexivity. cbn [fst at_task with_sink the_writer the_sink task_weight write_count]. lia.
          -- destruct (out_closed (the_writer s)).
             ++ eapply LW; try reflexivity. cbn [fst at_task with_sink the_writer the_sink task_weight write_count]. lia.
             ++ eapply LW; try reflexivity. unfold writer_weight.
                cbn [fst at_task with_sink the_writer the_sink task_weight write_count flag closer]. lia.
        * destruct (final_offset (the_sink s)) as [f|]; [destruct (_ =? f)|]; eapply LW; try reflexivity;
            cbn [fst at_task with_sink the_writer the_sink task_weight write_count]; lia.
      + eapply LW; try reflexivity. cbn [fst at_task stopped the_writer the_sink task_weight]. lia.
    - destruct (closer (the_writer s)) eqn:C; [|discriminate].
      unfold writer_weight. cbn [fst with_sink the_writer the_sink log read_count tasks cancelling finish_close flag closer].
      rewrite C. change (reader_weight (with_sink s (the_sink s) (finish_close (the_writer s) s0))) with (reader_weight s).
      lia.
    - destruct (cancelling s) as [st|] eqn:C; [|discriminate].
      pose proof (try_close_weight cs s st V) as TW. cbn [fst log read_count tasks the_sink the_writer cancelling].
      match goal with |- context [reader_weight ?x] => change (reader_weight x) with (reader_weight s) end.
      lia.
  Qed.

End Proofs.
