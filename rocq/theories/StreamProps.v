(** The properties of streams and their readers (C31). *)
From Coq Require Import List Bool PeanoNat Lia.
From Verif Require Import StreamModel StreamSpec StreamProofs StreamTraceProofs.
Import ListNotations.
Local Open Scope nat_scope.

(** In all statements, [ops] is any sequence of operations of writers, readers
    and owners of one stream, [bytesize] the size of its values and [initial]
    its initial capacity. *)

(** Chunks do not show: the stream answers like a log with positions. *)
Theorem C31_chunks_do_not_show : forall value status (orphaned : status) bytesize initial
    (ops : list (op value status)),
  snd (run orphaned (make_stream (default_chunk_capacity bytesize) initial) ops)
  = snd (arun orphaned (empty_log value status) ops).
Proof.
  intros value status orphaned bytesize initial ops.
  apply (run_ok orphaned ops), make_ok, default_capacity_positive.
Qed.

(** Every reader sees a prefix of what was written, whenever it was made and
    whatever the others do. *)
Theorem C31_readers_see_what_was_written : forall value status (orphaned : status) bytesize initial
    (ops : list (op value status)) i,
  let t := observe orphaned bytesize initial ops in
  exists rest, written t = items_read i t ++ rest.
Proof.
  intros value status orphaned bytesize initial ops i t.
  pose proof (observe_tells orphaned bytesize initial ops) as T. fold t in T.
  destruct (t_prefix _ _ _ T) as [r R].
  destruct (t_items _ _ _ T i) as [p [P1 [P2 _]]].
  exists (skipn p (log (after orphaned ops)) ++ r).
  now rewrite R, P2, app_assoc, firstn_skipn.
Qed.

(** A read returns the next value that was written, or, after the last one,
    nothing while the stream is open and its status once it is closed. *)
Theorem C31_read_result : forall value status (orphaned : status) bytesize initial
    (ops : list (op value status)) i,
  let t := observe orphaned bytesize initial ops in
  has_reader i t ->
  exists r, observe orphaned bytesize initial (ops ++ [TryRead i])
            = t ++ [(TryRead i, (Read r, []))]
    /\ read_says orphaned t i r.
Proof.
  intros value status orphaned bytesize initial ops i t R.
  destruct (read_ok _ _ _ _ (observe_tells orphaned bytesize initial ops) R) as [p [P1 [P2 P3]]].
  exists (read_at (after orphaned ops) p). split; [|assumption].
  unfold t. now rewrite observe_snoc, P2.
Qed.

(** While somebody can read, writes succeed until the stream is closed, and
    never after that. *)
Theorem C31_writes : forall value status (orphaned : status) bytesize initial
    (ops : list (op value status)) v,
  let t := observe orphaned bytesize initial ops in
  alive t ->
  (exists cbs, observe orphaned bytesize initial (ops ++ [TryWrite v])
     = t ++ [(TryWrite v, (Bool (negb (is_closed t)), cbs))])
  /\ (exists cbs, observe orphaned bytesize initial (ops ++ [Write v])
     = t ++ [(Write v, (if is_closed t then Fatal else Done, cbs))]).
Proof.
  intros value status orphaned bytesize initial ops v t A.
  pose proof (observe_tells orphaned bytesize initial ops) as T. fold t in T.
  apply (alive_iff _ _ _ T) in A.
  pose proof (t_status _ _ _ T A) as ST. pose proof (t_closed _ _ _ T) as C.
  rewrite !observe_snoc. fold t. cbn [astep]. rewrite A, ST.
  destruct (is_closed t); [|split; eexists; reflexivity].
  destruct (first_close orphaned t); [split; eexists; reflexivity|now destruct C].
Qed.

(** Once nobody can read any more, nothing happens. *)
Theorem C31_nobody_reads : forall value status (orphaned : status) bytesize initial
    (ops : list (op value status)) v,
  let t := observe orphaned bytesize initial ops in
  ~ alive t ->
  observe orphaned bytesize initial (ops ++ [TryWrite v]) = t ++ [(TryWrite v, (Bool false, []))]
  /\ observe orphaned bytesize initial (ops ++ [Write v]) = t ++ [(Write v, (Done, []))]
  /\ observe orphaned bytesize initial (ops ++ [Orphaned]) = t ++ [(Orphaned, (Bool true, []))].
Proof.
  intros value status orphaned bytesize initial ops v t A.
  pose proof (observe_tells orphaned bytesize initial ops) as T. fold t in T.
  rewrite (alive_iff _ _ _ T) in A. apply not_false_is_true in A.
  rewrite !observe_snoc. fold t. cbn [astep]. rewrite A, orb_true_r. now repeat split.
Qed.

(** The first attempt to close the stream decides its status; a second Close is
    fatal, a second TryClose does nothing.  A closing that has begun ends. *)
Theorem C31_closing : forall value status (orphaned : status) bytesize initial
    (ops : list (op value status)) st,
  let t := observe orphaned bytesize initial ops in
  observe orphaned bytesize initial (ops ++ [Close st])
    = t ++ [(Close st, (match first_close orphaned t with Some _ => Fatal | None => Done end, []))]
  /\ observe orphaned bytesize initial (ops ++ [TryClose st]) = t ++ [(TryClose st, (Done, []))]
  /\ observe orphaned bytesize initial (ops ++ [DestroyWriter])
    = t ++ [(DestroyWriter, (Done, []))]
  /\ (alive t ->
      observe orphaned bytesize initial (ops ++ [Orphaned])
      = t ++ [(Orphaned, (Bool (match first_close orphaned t with
                                | Some _ => true | None => false end), []))])
  /\ (first_close orphaned t <> None -> is_closed t = false ->
      is_closed (observe orphaned bytesize initial (ops ++ [FinishClose 0])) = true)
  /\ (is_closed t = true -> first_close orphaned t <> None).
Proof.
  intros value status orphaned bytesize initial ops st t.
  pose proof (observe_tells orphaned bytesize initial ops) as T. fold t in T.
  pose proof (t_flag _ _ _ T) as F. pose proof (t_closing _ _ _ T) as CL.
  rewrite !observe_snoc. fold t. cbn [astep]. rewrite F.
  split; [now destruct (first_close orphaned t)|].
  split; [now destruct (first_close orphaned t)|].
  split; [now destruct (first_close orphaned t)|].
  split; [intros A; apply (alive_iff _ _ _ T) in A; now rewrite A, orb_false_r|].
  split; [|exact (t_closed _ _ _ T)].
  intros FC NC. rewrite is_closed_app, NC, CL, NC.
  destruct (first_close orphaned t); [|now destruct FC]. cbn [nth_error].
  destruct (a_expired _ _ _); [reflexivity|]. destruct (a_status _); reflexivity.
Qed.

(** A callback runs at most once for each time it was subscribed.  One that has
    not run yet belongs to a reader that has nothing to read.  All have run once
    the stream is closed. *)
Theorem C31_no_lost_callbacks : forall value status (orphaned : status) bytesize initial
    (ops : list (op value status)) i n,
  let t := observe orphaned bytesize initial ops in
  runs (i, n) t <= subscribed (i, n) t
  /\ (has_reader i t -> runs (i, n) t < subscribed (i, n) t ->
      items_read i t = written t /\ is_closed t = false)
  /\ (alive t -> is_closed t = true -> runs (i, n) t = subscribed (i, n) t).
Proof.
  intros value status orphaned bytesize initial ops i n t.
  pose proof (observe_tells orphaned bytesize initial ops) as T. fold t in T.
  pose proof (t_callbacks _ _ _ T (i, n)) as C.
  split; [lia|].
  assert (W : runs (i, n) t < subscribed (i, n) t ->
              In (i, n) (waiting (after orphaned ops))).
  { intros L. destruct (count_zero (i, n) (waiting (after orphaned ops))); [lia|assumption]. }
  split.
  - intros R L. destruct (read_ok _ _ _ _ T R) as [p [P1 [_ P3]]].
    destruct (t_waiting _ _ _ T _ _ (W L)) as [_ [W2 W3]].
    unfold read_at in P3. rewrite (W3 _ P1), W2 in P3.
    replace (nth_error (log (after orphaned ops)) (length (log (after orphaned ops))))
      with (@None value) in P3 by (symmetry; now apply nth_error_None).
    exact P3.
  - intros A CL. apply (alive_iff _ _ _ T) in A.
    destruct (Nat.eq_dec (runs (i, n) t) (subscribed (i, n) t)) as [E|E]; [assumption|].
    destruct (t_waiting _ _ _ T i n) as [_ [W2 _]]; [apply W; lia|].
    rewrite (t_status _ _ _ T A), CL in W2. now apply (t_closed _ _ _ T) in CL.
Qed.

(** A callback that an operation runs finds something to read. *)
Theorem C31_callbacks_find_something : forall value status (orphaned : status) bytesize initial
    (ops : list (op value status)) o out cbs i n,
  let t := observe orphaned bytesize initial ops in
  let t' := observe orphaned bytesize initial (ops ++ [o]) in
  t' = t ++ [(o, (out, cbs))] -> In (i, n) cbs -> has_reader i t' ->
  exists r, observe orphaned bytesize initial (ops ++ [o; TryRead i])
            = t' ++ [(TryRead i, (Read r, []))]
    /\ r <> Empty.
Proof.
  intros value status orphaned bytesize initial ops o out cbs i n t t' E W R.
  pose proof (observe_tells orphaned bytesize initial ops) as T. fold t in T.
  pose proof (observe_tells orphaned bytesize initial (ops ++ [o])) as T'. fold t' in T'.
  destruct (read_ok _ _ _ _ T' R) as [p [P1 [P2 _]]].
  exists (read_at (after orphaned (ops ++ [o])) p). split.
  - replace (ops ++ [o; TryRead i]) with ((ops ++ [o]) ++ [TryRead i]) by now rewrite <- app_assoc.
    rewrite observe_snoc. fold t'. now rewrite P2.
  - rewrite after_snoc in *. apply (run_callback_ready _ t _ o i n p T); [|assumption].
    unfold t' in E. rewrite observe_snoc in E. fold t in E. apply app_inv_head in E.
    assert (snd (astep orphaned (after orphaned ops) o) = (out, cbs)) as -> by congruence.
    exact W.
Qed.

(** A stream of one-value chunks, two readers, a callback and a late write. *)
Definition example_ops : list (op nat nat) :=
  [MakeReader; SubscribeOnce 0 7; Write 10; Write 20; TryRead 0; MakeReader; TryRead 1; TryRead 1;
   SubscribeOnce 1 8; TryClose 0; TryWrite 30; FinishClose 0; TryWrite 40; TryRead 1; TryRead 1;
   TryRead 0; DropHandle].

Example C31_hypotheses_met :
  let t := observe 99 1024 0 example_ops in
  written t = [10; 20; 30] /\ items_read 0 t = [10; 20] /\ items_read 1 t = [10; 20; 30]
  /\ is_closed t = true /\ first_close 99 t = Some 0
  /\ runs (0, 7) t = 1 /\ runs (1, 8) t = 1
  /\ map snd t
     = [(Made 0, []); (Done, []); (Done, [(0, 7)]); (Done, []); (Read (Item 10), []); (Made 1, []);
        (Read (Item 10), []); (Read (Item 20), []); (Done, []); (Done, []); (Bool true, [(1, 8)]);
        (Done, []); (Bool false, []); (Read (Item 30), []); (Read (Closed 0), []);
        (Read (Item 20), []); (Done, [])]
  /\ has_reader 0 t /\ has_reader 1 t /\ alive t
  /\ ~ alive (observe 99 1024 0 (example_ops ++ [DropReader 0; DropReader 1])).
Proof.
  vm_compute.
  repeat match goal with |- _ /\ _ => split end; try reflexivity; try tauto;
    try (intuition congruence).
  - right. exists 0. intuition congruence.
  - intros [H|[i [H1 H2]]]; [tauto|].
    repeat (destruct H1 as [H1|H1]; [try discriminate|]); try contradiction;
      assert (i = 0 \/ i = 1) as [ -> | -> ] by (injection H1; lia); apply H2; tauto.
Qed.

Print Assumptions C31_chunks_do_not_show.
Print Assumptions C31_readers_see_what_was_written.
Print Assumptions C31_read_result.
Print Assumptions C31_writes.
Print Assumptions C31_nobody_reads.
Print Assumptions C31_closing.
Print Assumptions C31_no_lost_callbacks.
Print Assumptions C31_callbacks_find_something.
