(** The properties of futures (C34). *)
From Coq Require Import List Bool PeanoNat Lia.
From Verif Require Import FutureModel FutureSpec FutureProofs.
Import ListNotations.
Local Open Scope nat_scope.

(** In all statements, [ops] is any sequence of steps of any threads that use
    one future. *)

(** The value is set at most once and never changes: after the first value was
    given, that value is seen, and no writer can set another one. *)
Theorem C34_set_once : forall value status (matches : value -> bool) (orphaned ok : status)
    (ops : list (op value status)) o,
  let t := observe matches orphaned ok ops in
  let out := snd (step matches orphaned ok (after matches orphaned ok ops) o) in
  observe matches orphaned ok (ops ++ [o]) = t ++ [(o, out)]
  /\ out <> AlreadySet
  /\ (o = PeekValue -> out = Peeked (given orphaned t))
  /\ (given orphaned t <> None ->
      given orphaned (t ++ [(o, out)]) = given orphaned t
      /\ forall i r, o = SetValue i r -> out = MovedFrom \/ out = Impossible).
Proof.
  intros value status matches orphaned ok ops o t out.
  pose proof (observe_tells matches orphaned ok ops) as T. fold t in T.
  split; [apply observe_snoc|].
  assert (H : forall i, nth_error (writers (after matches orphaned ok ops)) i = Some true ->
              value_ (fut (after matches orphaned ok ops)) = None).
  { intros i W. apply (t_writers _ _ _ _ T) in W.
    destruct (value_ (fut (after matches orphaned ok ops))) eqn:V; [|reflexivity].
    pose proof (t_holder _ _ _ _ T) as X. rewrite V in X. rewrite X in W by discriminate. discriminate. }
  split; [|split].
  - assert (SV : forall i r, value_ (fut (after matches orphaned ok ops)) = None ->
      snd (set_value matches (after matches orphaned ok ops) i r) <> AlreadySet).
    { intros i r V. unfold set_value. rewrite V.
      destruct r as [v|st]; [destruct (negb (matches v))|]; discriminate. }
    assert (AC : forall c, snd (add_consumer (after matches orphaned ok ops) c) <> AlreadySet).
    { intros c. unfold add_consumer. destruct (value_ _); discriminate. }
    unfold out. destruct o as [c|i r|i|i|i|k| | |i|i c]; cbn [step].
    + apply AC.
    + destruct (nth_error _ i) as [[|]|] eqn:W; [apply SV; now apply H in W|discriminate|discriminate].
    + destruct (nth_error _ i) as [[|]|] eqn:W; [apply SV; now apply H in W|discriminate|discriminate].
    + destruct (nth_error _ i); discriminate.
    + destruct (nth_error _ i); discriminate.
    + destruct (nth_error _ k) as [[|[c r] l]|]; discriminate.
    + discriminate.
    + discriminate.
    + destruct (nth_error _ i); discriminate.
    + destruct (nth_error _ i); [apply AC|discriminate].
  - intros ->. unfold out. cbn. unfold peek_value. now rewrite (t_value _ _ _ _ T).
  - intros G. split.
    + rewrite given_app. now destruct (given orphaned t).
    + intros i r ->. unfold out. cbn [step].
      destruct (nth_error _ i) as [[|]|] eqn:W; [|now left|now right].
      exfalso. apply G. rewrite <- (t_value _ _ _ _ T). now apply H in W.
Qed.

(** Every consumer is called with the value of the future, at most as often as
    it was added, and exactly as often once the value is set and no thread has a
    call left.  Nobody is called before that. *)
Theorem C34_consumers : forall value status (matches : value -> bool) (orphaned ok : status)
    (ops : list (op value status)) c,
  let t := observe matches orphaned ok ops in
  (forall r, In r (called c t) -> given orphaned t = Some r)
  /\ length (called c t) <= added c t
  /\ (given orphaned t <> None ->
      (forall k, observe matches orphaned ok (ops ++ [Step k]) = t ++ [(Step k, Impossible)]) ->
      length (called c t) = added c t).
Proof.
  intros value status matches orphaned ok ops c t.
  pose proof (observe_tells matches orphaned ok ops) as T. fold t in T.
  split; [|split].
  - intros r I. rewrite <- (t_value _ _ _ _ T). now apply (t_called _ _ _ _ T c).
  - rewrite (t_count _ _ _ _ T c). lia.
  - intros G Q. rewrite (t_count _ _ _ _ T c), (t_none _ _ _ _ T).
    + assert (P : pending c (threads (after matches orphaned ok ops)) = 0); [|rewrite P; cbn; lia].
      assert (E : forall k l, nth_error (threads (after matches orphaned ok ops)) k = Some l -> l = []).
      { intros k l W. specialize (Q k). rewrite observe_snoc in Q. cbn [step] in Q. rewrite W in Q.
        destruct l as [|[d r] l]; [reflexivity|]. apply app_inv_head in Q. discriminate. }
      clear -E. induction (threads (after matches orphaned ok ops)) as [|th l IH]; [reflexivity|].
      rewrite pending_cons, IH by (intros k m H; now apply (E (S k))).
      rewrite (E 0 th eq_refl). reflexivity.
    + rewrite (t_value _ _ _ _ T). exact G.
Qed.

(** While the future has no value and nobody overwrote a writer by assignment,
    there is a writer; destroying it sets the error "orphaned". *)
Theorem C34_abandoned : forall value status (matches : value -> bool) (orphaned ok : status)
    (ops : list (op value status)),
  let t := observe matches orphaned ok ops in
  (forall i, ~ In (AssignWriter i) ops) -> given orphaned t = None ->
  exists i, holder t = Some i
    /\ given orphaned (observe matches orphaned ok (ops ++ [DestroyWriter i]))
       = Some (Error orphaned).
Proof.
  intros value status matches orphaned ok ops t A G.
  pose proof (observe_tells matches orphaned ok ops) as T. fold t in T.
  rewrite <- (t_value _ _ _ _ T) in G.
  destruct (holder t) as [i|] eqn:HD.
  - exists i. split; [reflexivity|]. rewrite observe_snoc. cbn [step].
    apply (t_writers _ _ _ _ T) in HD. rewrite HD. unfold set_value. rewrite G. cbn [snd].
    rewrite given_app. fold t. rewrite <- (t_value _ _ _ _ T), G. reflexivity.
  - exfalso. refine (t_abandoned _ _ _ _ T _ G HD). intros i I. apply (A i).
    unfold t, observe in I. now apply in_combine_l in I.
Qed.

(** The destructor matters: a writer that is overwritten by assignment leaves
    its future without a value for ever, although every writer is gone. *)
Theorem C34_overwritten_writer_refuted :
  exists ops : list (op nat nat),
    (forall i, i < 1 -> In (DestroyWriter i) ops)
    /\ forall more, given 1 (observe (fun _ => true) 1 0 (ops ++ more)) = None.
Proof.
  exists [AssignWriter 0; DestroyWriter 0]. split.
  { intros [|i] L; [right; now left|lia]. }
  intros more.
  assert (H : forall more, holder (observe (fun _ : nat => true) 1 0 ([AssignWriter 0; DestroyWriter 0] ++ more)) = None
    /\ given 1 (observe (fun _ : nat => true) 1 0 ([AssignWriter 0; DestroyWriter 0] ++ more)) = None).
  { clear more. intros more. induction more as [|o more IH] using rev_ind; [now split|].
    rewrite app_assoc, observe_snoc.
    pose proof (observe_tells (fun _ : nat => true) 1 0 ([AssignWriter 0; DestroyWriter 0] ++ more)) as T.
    destruct IH as [H G]. rewrite holder_app, H, given_app, G. split; [reflexivity|].
    assert (W : forall i, nth_error (writers (after (fun _ : nat => true) 1 0
                  ([AssignWriter 0; DestroyWriter 0] ++ more))) i <> Some true).
    { intros i E. apply (t_writers _ _ _ _ T) in E. congruence. }
    destruct o as [c|i r|i|i|i|k| | |i|i c]; try reflexivity; cbn [step].
    - specialize (W i). destruct (nth_error _ i) as [[|]|]; [congruence|reflexivity|reflexivity].
    - specialize (W i). destruct (nth_error _ i) as [[|]|]; [congruence|reflexivity|reflexivity]. }
  apply H.
Qed.

(** A stream reader made from a future reads nothing before the value is set,
    then the value once and then the end; or the error, every time. *)
Theorem C34_stream_reader : forall value status (matches : value -> bool) (orphaned ok : status)
    (ops : list (op value status)) i,
  let t := observe matches orphaned ok ops in
  has_reader i t ->
  observe matches orphaned ok (ops ++ [TryRead i])
  = t ++ [(TryRead i, Read match given orphaned t with
                           | None => Empty
                           | Some (Error st) => Closed st
                           | Some (Value v) => if got_item i t then Closed ok else Item v
                           end)].
Proof.
  intros value status matches orphaned ok ops i t R.
  pose proof (observe_tells matches orphaned ok ops) as T. fold t in T.
  apply (t_readers _ _ _ _ T) in R. rewrite observe_snoc. fold t. f_equal. f_equal. f_equal.
  cbn [step]. destruct (nth_error (freaders _) i) as [x|] eqn:E; [|apply nth_error_None in E; lia].
  cbn [snd]. f_equal. pose proof (t_reader _ _ _ _ T i x E) as X. unfold reader_ok in X.
  unfold try_read, peek_value. rewrite <- (t_value _ _ _ _ T).
  destruct (read_ x).
  - destruct (value_ _) as [[v|st]|]; [|destruct X as [-> _]; reflexivity|contradiction].
    destruct X as [-> ->]. reflexivity.
  - destruct X as [_ ->]. destruct (value_ _) as [[v|st]|]; reflexivity.
Qed.

(** Two consumers before the value and one after it, calls interleaved with
    other steps, a moved writer, a reader. *)
Definition future_example : list (op nat nat) :=
  [AddConsumer 7; MoveWriter 0; MakeReader; SubscribeOnce 0 8; TryRead 0; SetValue 0 (Value 4);
   SetValue 1 (Value 5); Step 0; AddConsumer 9; SetValue 1 (Value 6); DestroyWriter 1; Step 1;
   PeekValue; TryRead 0; Step 0; TryRead 0; Step 0; Step 1].

Example C34_hypotheses_met :
  let t := observe Nat.odd 1 0 future_example in
  map snd t
  = [Done; Made 1; Made 0; Done; Read Empty; MovedFrom; Calls; Called 7 (Value 5); Calls;
     MovedFrom; Done; Called 9 (Value 5); Peeked (Some (Value 5)); Read (Item 5);
     Called 8 (Value 5); Read (Closed 0); Impossible; Impossible]
  /\ given 1 t = Some (Value 5) /\ has_reader 0 t /\ holder t = None
  /\ (forall i, ~ In (AssignWriter i) future_example)
  /\ (forall k, observe Nat.odd 1 0 (future_example ++ [Step k]) = t ++ [(Step k, Impossible)])
  /\ added 8 t = 1 /\ called 8 t = [Value 5]
  /\ given 1 (observe Nat.odd 1 0 [MoveWriter 0; SetValue 1 (Value 4)]) = None
  /\ given 1 (observe Nat.odd 1 0 [MoveWriter 0; DestroyWriter 0; DestroyWriter 1])
     = Some (Error 1).
Proof.
  intros t.   repeat match goal with |- _ /\ _ => split end; try reflexivity.
  - vm_compute. right. right. now left.
  - intros i H. vm_compute in H. intuition congruence.
  - intros [|[|[|k]]]; vm_compute; reflexivity.
Qed.

Print Assumptions C34_set_once.
Print Assumptions C34_consumers.
Print Assumptions C34_abandoned.
Print Assumptions C34_overwritten_writer_refuted.
Print Assumptions C34_stream_reader.
