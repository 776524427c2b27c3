(** Proofs about while loops: a while loop is a loop over a stream that gets an item whenever it asks *)
From Coq Require Import String.
From Coq Require Import List Bool Arith Lia.
From Verif Require Import ForModel ForSpec ForProofs ForRunProofs WhileModel WhileSpec.
Import ListNotations.
Local Open Scope list_scope.

Section Proofs.
Variables (value type E : Type).
Variable type_of : value -> type.
Variable type_eqb : type -> type -> bool.
Hypothesis type_eqb_spec : forall a b, type_eqb a b = true <-> a = b.
Variables (m : mode) (cf : variables value -> condition E) (bf : variables value -> returned value E).
Variables (last : string) (initial : value) (l0 : variables value).
Hypothesis names : NoDup (map fst l0).
Hypothesis fresh : ~ In last (map fst l0).

Notation wstate := (loop_state value E).
Notation event := (event E).
Notation w_step := (w_step type_of type_eqb m cf bf initial).
Notation w_run := (w_run type_of type_eqb m cf bf initial).
Notation while_loop := (while_loop type_of type_eqb m cf bf last initial l0).
Definition f : functors value E := Build_functors (fun _ l => bf l) None (Some cf).
Notation run := (run type_of type_eqb m f initial).
Notation looped := (looped type_of type_eqb m f last initial l0).
Notation inv := (inv value type E type_of type_eqb m f last initial l0).

Lemma repeated_loop n : forall l, repeated type_of type_eqb m cf bf last initial n l =
  loop type_of type_eqb m f last initial (repeat initial n) None l.
Proof.
  induction n as [|n IH]; intros l; [reflexivity|]. cbn. destruct (cf l); auto.
  destruct (outcome _ _ _ _ _ _ _) as [[l' out]|]; [now rewrite IH|reflexivity].
Qed.
Lemma while_looped n : while_loop n = looped (repeat initial n) None.
Proof. unfold WhileSpec.while_loop, ForSpec.looped. rewrite !repeated_loop. reflexivity. Qed.

Definition pc_of (p : place E) : pc value E :=
  match p with
  | Starting => Subscribing At_start
  | Scheduled => Queued At_start
  | Resuming => Queued On_condition
  | Asking => Calling_condition
  | Running => Reading
  | Handing => Yielding false
  | Winding => Succeeding
  | Sealing => Closing
  | Breaking e => Failing e
  | Listening => Subscribing On_condition
  | Sleeping => Waiting On_condition
  | Dropping => Leaving
  | Dropped => Gone
  end.
(** The body was called k times: k items were read *)
Definition embed (k : nat) (s : wstate) : state value E :=
  State value E (repeat initial k) None k (pc_of (w_at s)) (w_vars s) (w_changed s) (w_written s) (w_status s) (w_flag s)
    (w_expired s) (w_cancelled s) (w_notified s) (w_cancelling s) (w_shut s).
Definition op_of (o : event) : op value E :=
  match o with
  | W_step now => Step now
  | W_notify => Notify
  | W_expire => Expire
  | W_cancel e => Cancel e
  | W_on_cancel => Call_on_cancel
  | W_close_cancelled => Close_cancelled
  | W_shutdown => Shutdown
  end.

Lemma nth_repeat_app (k : nat) : nth_error (repeat initial k ++ [initial]) k = Some initial.
Proof. induction k; auto. Qed.
Lemma repeat_snoc (k : nat) : repeat initial k ++ [initial] = repeat initial (S k).
Proof. symmetry. apply (repeat_cons k initial). Qed.

Definition after (k : nat) (s : wstate) (o : event) : nat :=
  match o, w_at s with W_step _, Running => S k | _, _ => k end.
Lemma simulate k s o : exists ops', embed (after k s o) (w_step s o) = run (embed k s) ops'.
Proof.
  destruct s as [p l ch w st fl ex ca no cg sh].
  destruct o as [now| | |e| | |].
  - destruct p.
    5: {
      exists [Write_input initial; Step now; Step now]. change (after k _ _) with (S k).
      cbn [ForModel.run fold_left ForModel.step embed in_closed log position at_ vars changed written out_status flag expired cancelled notified cancelling shut
           pc_of w_at w_vars w_changed w_written w_status w_flag w_expired w_cancelled w_notified w_cancelling w_shut].
      unfold routine_step at 2.
      cbn [at_ log position]. rewrite nth_repeat_app, repeat_snoc.
      unfold routine_step, goto. cbn [at_ log position in_closed vars changed written out_status flag expired cancelled notified cancelling shut orphaned].
      unfold embed. cbn [WhileModel.w_step w_routine w_at w_vars]. unfold w_orphaned, orphaned. cbn.
      destruct (fl || ex)%bool; [reflexivity|]. unfold apply_update. cbn [vars].
      destruct (update type_of type_eqb l (bf (arguments m l))) as [l'|e]; [|reflexivity].
      destruct m; reflexivity. }
    all: exists [Step now].
    + cbn. unfold w_interrupted, interrupted, w_orphaned, orphaned. cbn. destruct ca; [reflexivity|]. destruct (fl || ex)%bool; reflexivity.
    + reflexivity.
    + cbn. destruct (cf _); reflexivity.
    + cbn. unfold w_orphaned, orphaned. cbn. destruct (fl || ex)%bool; [reflexivity|]. destruct now; [|reflexivity]. destruct (cf _); reflexivity.
    + cbn. destruct ch; [|reflexivity]. destruct (last_value l); [|reflexivity]. unfold w_try_write, try_write. cbn.
      destruct ex; [reflexivity|]. destruct st; reflexivity.
    + cbn. destruct m.
      * destruct (last_value l); [|reflexivity]. unfold w_try_write, try_write. cbn. destruct ex; [reflexivity|]. destruct st; reflexivity.
      * unfold w_try_close, try_close. cbn. destruct fl; reflexivity.
    + cbn. unfold w_try_close, try_close. cbn. destruct fl; reflexivity.
    + cbn. unfold w_try_close, try_close. cbn. destruct fl; reflexivity.
    + cbn. unfold w_interrupted, interrupted, w_orphaned, orphaned. cbn. destruct ca; [reflexivity|]. destruct (fl || ex)%bool; reflexivity.
    + reflexivity.
    + cbn. unfold w_try_close, try_close. cbn. destruct fl; reflexivity.
    + reflexivity.
  - exists [Notify]. destruct p; try reflexivity. cbn.
    unfold w_interrupted, interrupted, w_orphaned, orphaned. cbn. destruct ca; [reflexivity|]. destruct (fl || ex)%bool; reflexivity.
  - exists [Expire]. reflexivity.
  - exists [Cancel e]. cbn. destruct ca; reflexivity.
  - exists [Call_on_cancel]. cbn. destruct ca; [|reflexivity]. destruct no, p; reflexivity.
  - exists [Close_cancelled]. cbn. destruct cg; reflexivity.
  - exists [Shutdown]. destruct p; reflexivity.
Qed.

Lemma w_run_app s ops o : w_run s (ops ++ [o]) = w_step (w_run s ops) o.
Proof. unfold WhileModel.w_run. now rewrite fold_left_app. Qed.

Definition good (k : nat) (s : wstate) : Prop := inv (embed k s).
Lemma step_good k s o : good k s -> good (after k s o) (w_step s o).
Proof. intros G. destruct (simulate k s o) as (ops' & R). unfold good. rewrite R. now apply run_inv. Qed.
Lemma after_le k s o : after k s o <= S k.
Proof. unfold after. destruct o; try lia. destruct (w_at s); lia. Qed.

Record flags (ops : list event) (s : wstate) : Prop := {
  f_exp : w_expired s = true -> In W_expire ops;
  f_can : forall e, w_cancelled s = Some e -> In (W_cancel e) ops;
  f_shut : w_shut s = true -> In W_shutdown ops }.
Lemma step_flags ops s o : flags ops s -> flags (ops ++ [o]) (w_step s o).
Proof.
  intros [A B C].
  assert (L : forall x, In x ops -> In x (ops ++ [o])) by (intros x H; apply in_or_app; now left).
  assert (R : In o (ops ++ [o])) by (apply in_or_app; right; now left).
  assert (M : flags (ops ++ [o]) s) by (constructor; auto).
  destruct s as [p l ch w st fl ex ca no cg sh]; cbn in A, B, C.
  assert (K : forall p l ch w st fl no cg, flags (ops ++ [o]) (Loop_state p l ch w st fl ex ca no cg sh)) by (intros; constructor; cbn; auto).
  destruct o as [now| | |e| | |].
  - cbn. unfold w_try_close, w_try_write, moved, with_vars, w_routine. destruct p; cbn.
    + destruct (w_interrupted _); apply K.
    + apply K.
    + destruct (cf _); apply K.
    + destruct (w_orphaned _); [apply K|]. destruct now; [|apply K]. destruct (cf _); apply K.
    + destruct (w_orphaned _); [apply K|]. destruct (update _ _ _ _); [|apply K]. destruct m; apply K.
    + destruct ch; [|apply K]. destruct (last_value l); [|apply K]. unfold w_try_write; cbn. destruct ex; [apply K|]. destruct st; apply K.
    + destruct m; [destruct (last_value l); [|apply K]; unfold w_try_write; cbn; destruct ex; [apply K|]; destruct st; apply K|].
      unfold w_try_close; cbn. destruct fl; apply K.
    + unfold w_try_close; cbn. destruct fl; apply K.
    + unfold w_try_close; cbn. destruct fl; apply K.
    + destruct (w_interrupted _); apply K.
    + apply K.
    + unfold w_try_close; cbn. destruct fl; apply K.
    + apply K.
  - destruct p; try exact M. cbn. destruct (w_interrupted _); apply K.
  - constructor; cbn; auto.
  - cbn. destruct ca; [exact M|]. constructor; cbn; auto. intros x X. injection X as <-. exact R.
  - cbn. destruct ca; [|exact M]. destruct no, p; try exact M; apply K.
  - cbn. destruct cg; [|exact M]. apply K.
  - destruct p; try exact M; constructor; cbn; auto.
Qed.

Section Top.
Variable s0 : wstate.
Hypothesis begun : w_start m last initial l0 = Some s0.
Lemma start_good : good 0 s0.
Proof.
  unfold w_start in begun. destruct (existsb _ _) eqn:X; [discriminate|]. assert (s0 = _) as -> by (symmetry; injection begun; intros H; exact H).
  unfold good. apply start_inv; auto. unfold start. rewrite X. reflexivity.
Qed.
Lemma reach ops : exists k, k <= length ops /\ good k (w_run s0 ops) /\ flags ops (w_run s0 ops).
Proof.
  induction ops as [|o ops IH] using rev_ind.
  - exists 0. split; [auto|]. split; [exact start_good|]. unfold w_start in begun. destruct (existsb _ _); [discriminate|].
    injection begun as <-. constructor; cbn; discriminate.
  - destruct IH as (k & K & G & F). rewrite w_run_app. pose proof (step_good k _ o G) as G'. pose proof (after_le k (w_run s0 ops) o).
    eexists. split; [|split; [exact G'|]]; [rewrite app_length; cbn; lia|]. now apply step_flags.
Qed.

Lemma future k s (P : list value * ending E -> Prop) n :
  in_future value type E type_of type_eqb m f last initial l0 (embed k s) P -> k <= n -> P (while_loop n).
Proof.
  intros H L. rewrite while_looped. replace n with (k + (n - k)) by lia. rewrite repeat_app. apply H. now left.
Qed.

Lemma while_prefix ops : m = Yields \/ (forall e, ~ In (W_cancel e) ops) ->
  forall n, length ops <= n -> prefix (w_written (w_run s0 ops)) (fst (while_loop n)).
Proof.
  intros H n N. destruct (reach ops) as (k & K & G & F).
  apply (future k (w_run s0 ops) (fun t => prefix (w_written (w_run s0 ops)) (fst t))); [|lia].
  apply (i_prefix _ _ _ _ _ _ _ _ _ _ _ G). destruct H as [H|H]; [now left|right]. cbn.
  destruct (w_cancelled (w_run s0 ops)) as [e|] eqn:C; [|reflexivity]. now destruct (H e (f_can _ _ F e C)).
Qed.
Lemma while_success ops : w_status (w_run s0 ops) = Some OK ->
  forall n, length ops <= n -> while_loop n = (w_written (w_run s0 ops), Ends OK).
Proof.
  intros H n N. destruct (reach ops) as (k & K & G & F).
  apply (future k (w_run s0 ops) (fun t => t = (w_written (w_run s0 ops), Ends OK))); [|lia].
  exact (i_ok _ _ _ _ _ _ _ _ _ _ _ G H).
Qed.
Lemma while_error ops e : w_status (w_run s0 ops) = Some (Err e) ->
  (forall n, length ops <= n -> while_loop n = (w_written (w_run s0 ops), Ends (Err e))) \/
  (exists c, In (W_cancel c) ops /\ (e = Cancelled c \/ e = Orphaned)) \/ (In W_shutdown ops /\ e = Orphaned).
Proof.
  intros H. destruct (reach ops) as (k & K & G & F).
  destruct (i_err _ _ _ _ _ _ _ _ _ _ _ G e H) as [X|[(c & X & ->)|[-> [X|X]]]].
  - left. intros n N. apply (future k (w_run s0 ops) (fun t => t = (w_written (w_run s0 ops), Ends (Err e)))); [exact X|lia].
  - right; left. exists c. split; [exact (f_can _ _ F c X)|now left].
  - right; left. cbn in X. destruct (w_cancelled (w_run s0 ops)) as [c|] eqn:C; [|congruence]. exists c. split; [exact (f_can _ _ F c C)|now right].
  - right; right. split; [exact (f_shut _ _ F X)|reflexivity].
Qed.

(** Nothing came from outside *)
Definition calm (s : wstate) : Prop := w_expired s = false /\ w_cancelled s = None /\ w_shut s = false.
Lemma dropped_status k s : good k s -> calm s -> w_at s = Dropped -> w_status s <> None.
Proof.
  intros G (X & C & _) D. pose proof (i_phase _ _ _ _ _ _ _ _ _ _ _ G) as P. unfold phase in P. cbn in P. rewrite D in P. cbn in P.
  destruct (i_flag _ _ _ _ _ _ _ _ _ _ _ G P) as [H|[H|H]]; [exact H|cbn in H; congruence|].
  cbn in H. destruct (w_cancelling s) as [e|] eqn:Y; [|congruence].
  destruct (i_cancel _ _ _ _ _ _ _ _ _ _ _ G e Y) as (_ & Z & _). cbn in Z. congruence.
Qed.
Lemma calm_run ops : ~ In W_expire ops -> (forall e, ~ In (W_cancel e) ops) -> ~ In W_shutdown ops -> calm (w_run s0 ops).
Proof.
  intros X C S. destruct (reach ops) as (k & _ & _ & [A B D]). repeat split.
  - destruct (w_expired _); [now destruct (X (A eq_refl))|reflexivity].
  - destruct (w_cancelled _) as [e|]; [now destruct (C e (B e eq_refl))|reflexivity].
  - destruct (w_shut _); [now destruct (S (D eq_refl))|reflexivity].
Qed.
Lemma while_complete ops : ~ In W_expire ops -> (forall e, ~ In (W_cancel e) ops) -> ~ In W_shutdown ops ->
  w_at (w_run s0 ops) = Dropped ->
  exists st, w_status (w_run s0 ops) = Some st /\ forall n, length ops <= n -> while_loop n = (w_written (w_run s0 ops), Ends st).
Proof.
  intros X C S D. destruct (reach ops) as (k & _ & G & _).
  pose proof (dropped_status k _ G (calm_run ops X C S) D) as H.
  destruct (w_status (w_run s0 ops)) as [[|e]|] eqn:O; [| |congruence].
  - exists OK. split; [reflexivity|]. now apply while_success.
  - exists (Err e). split; [reflexivity|]. destruct (while_error ops e O) as [T|[(c & T & _)|[T _]]]; [exact T|now destruct (C c)|now destruct S].
Qed.

(** * It ends if the loop does *)
Lemma repeated_more n : forall l o st j, repeated type_of type_eqb m cf bf last initial n l = (o, Ends st) ->
  repeated type_of type_eqb m cf bf last initial (n + j) l = (o, Ends st).
Proof.
  induction n as [|n IH]; intros l o st j; cbn.
  - destruct j; cbn; [auto|]. destruct (cf l); auto. discriminate.
  - destruct (cf l); auto. destruct (outcome _ _ _ _ _ _ _) as [[l' out]|]; [|auto].
    destruct (repeated type_of type_eqb m cf bf last initial n l') as [o' st'] eqn:R. unfold then_ at 1. cbn. intros H.
    injection H as <- ->. now rewrite (IH _ _ _ j R).
Qed.
Lemma loop_more n o st k : while_loop n = (o, Ends st) -> n <= k -> while_loop k = (o, Ends st).
Proof.
  intros H L. replace k with (n + (k - n)) by lia. unfold WhileSpec.while_loop in *.
  pose proof (fun l o st => repeated_more n l o st (k - n)) as M. destruct m.
  - now apply M.
  - destruct (repeated _ _ _ _ _ _ _ n l0) as [o' st'] eqn:R. unfold then_ in H at 1. cbn in H. injection H as <- ->.
    now rewrite (M _ _ _ R).
Qed.
Lemma running_early k s n o st : good k s -> w_at s = Running -> while_loop n = (o, Ends st) -> k < n.
Proof.
  intros G A H. destruct (Nat.lt_ge_cases k n) as [L|L]; [exact L|exfalso].
  apply (loop_more n o st k) in H; [|exact L]. rewrite while_looped in H.
  assert (N : at_ (embed k s) = Reading) by (cbn; now rewrite A).
  assert (X : exact value type E type_of type_eqb m f last initial l0 (embed k s)).
  { apply live_exact; [|now rewrite N..]. apply phase_at; [exact G|now rewrite N..]. }
  destruct X as [X _]. specialize (X [] None (or_introl eq_refl)). rewrite app_nil_r, N in X. cbn [log embed] in X. rewrite H in X.
  cbn [position embed] in X. rewrite skipn_all2 in X by (rewrite repeat_length; lia). discriminate X.
Qed.

Definition rank (p : place E) : nat :=
  match p with
  | Starting => 10 | Scheduled => 9 | Asking => 8 | Listening => 7 | Sleeping => 6 | Resuming => 5 | Running => 4
  | Handing => 9 | Winding => 3 | Sealing => 2 | Breaking _ => 2 | Dropping => 1 | Dropped => 0
  end.
Definition pair (b : bool) (s : wstate) : wstate := w_step (w_step s (W_step b)) W_notify.

Lemma has_last k s : good k s -> exists v, last_value (w_vars s) = Some v.
Proof.
  intros G. destruct (result_last value type type_of last initial l0 names fresh (w_vars s) (i_sigs _ _ _ _ _ _ _ _ _ _ _ G)) as (v & LV & _). now exists v.
Qed.
Lemma routine_rank s b v : last_value (w_vars s) = Some v -> w_at s <> Running -> w_at s <> Dropped -> w_at s <> Sleeping ->
  rank (w_at (w_step s (W_step b))) < rank (w_at s).
Proof.
  intros LV A B C. destruct s as [p l ch w st fl ex ca no cg sh]. cbn in *. unfold w_routine. cbn.
  destruct p; cbn; try congruence.
  - destruct (w_interrupted _); cbn; lia.
  - cbn; lia.
  - destruct (cf _); cbn; lia.
  - destruct (w_orphaned _); cbn; [lia|]. destruct b; [|cbn; lia]. destruct (cf _); cbn; lia.
  - destruct ch; [|cbn; lia]. rewrite LV. unfold w_try_write. cbn. destruct ex; [cbn; lia|]. destruct st; cbn; lia.
  - destruct m.
    + rewrite LV. unfold w_try_write. cbn. destruct ex; [cbn; lia|]. destruct st; cbn; lia.
    + cbn; lia.
  - cbn; lia.
  - cbn; lia.
  - destruct (w_interrupted _); cbn; lia.
  - cbn; lia.
Qed.
Lemma notify_rank s : rank (w_at (w_step s W_notify)) <= rank (w_at s) /\
  (w_at s = Sleeping -> rank (w_at (w_step s W_notify)) < rank (w_at s)).
Proof. cbn. destruct (w_at s) eqn:A; rewrite ?A; try (split; [lia|discriminate]). destruct (w_interrupted s); cbn; split; intros; lia. Qed.

Lemma calm_step s b : calm s -> calm (w_step s (W_step b)).
Proof.
  intros (X & C & S). assert (F : flags [] s) by (constructor; cbn; intros; congruence).
  apply (step_flags [] s (W_step b)) in F. destruct F as [F1 F2 F3]. cbn [app] in *. repeat split.
  - destruct (w_expired (w_step s (W_step b))); [|reflexivity]. destruct (F1 eq_refl) as [Y|[]]; discriminate.
  - destruct (w_cancelled (w_step s (W_step b))) as [e|]; [|reflexivity]. destruct (F2 e eq_refl) as [Y|[]]; discriminate.
  - destruct (w_shut (w_step s (W_step b))); [|reflexivity]. destruct (F3 eq_refl) as [Y|[]]; discriminate.
Qed.
Definition work (n k : nat) (s : wstate) : nat := 6 * (n - k) + rank (w_at s).

Lemma pair_works n out st k s b : while_loop n = (out, Ends st) -> good k s -> calm s -> w_at s <> Dropped ->
  exists k', good k' (pair b s) /\ calm (pair b s) /\ work n k' (pair b s) < work n k s.
Proof.
  intros H G C D. unfold pair.
  pose proof (step_good _ _ (W_step b) G) as G1. pose proof (step_good _ _ W_notify G1) as G2.
  assert (C2 : calm (w_step (w_step s (W_step b)) W_notify)).
  { apply (calm_step _ b) in C. revert C. generalize (w_step s (W_step b)). intros t (X & Y & Z). cbn.
    destruct (w_at t); try (now repeat split). destruct (w_interrupted t); repeat split; auto. }
  eexists. split; [exact G2|]. split; [exact C2|]. change (after _ (w_step s (W_step b)) W_notify) with (after k s (W_step b)).
  destruct (notify_rank (w_step s (W_step b))) as [N1 N2]. unfold work.
  destruct (has_last k s G) as [v LV].
  assert (Q : w_at s = Running \/ w_at s = Sleeping \/ (w_at s <> Running /\ w_at s <> Sleeping)).
  { destruct (w_at s); auto; right; right; split; discriminate. }
  destruct Q as [Q|[Q|[Q1 Q2]]].
  - pose proof (running_early k s n out st G Q H) as K. unfold after. rewrite Q.
    assert (R : rank (w_at (w_step s (W_step b))) <= 9).
    { cbn. unfold w_routine. rewrite Q. destruct (w_orphaned s); [cbn; lia|]. destruct (update _ _ _ _); [|cbn; lia]. destruct m; cbn; lia. }
    cbn [rank]. lia.
  - unfold after. rewrite Q. assert (T : w_step s (W_step b) = s) by (cbn; unfold w_routine; now rewrite Q).
    rewrite T in *. specialize (N2 Q). rewrite Q in N2. lia.
  - assert (A : after k s (W_step b) = k) by (unfold after; destruct (w_at s); congruence). rewrite A.
    pose proof (routine_rank s b v LV Q1 D Q2). lia.
Qed.
Lemma dropped_pair s b : w_at s = Dropped -> pair b s = s.
Proof. intros D. unfold pair. cbn. unfold w_routine. rewrite D. now rewrite D. Qed.
Lemma pairs_work n out st bs : while_loop n = (out, Ends st) -> forall k s, good k s -> calm s -> work n k s <= length bs ->
  let s' := fold_left (fun s b => pair b s) bs s in w_at s' = Dropped.
Proof.
  intros H. induction bs as [|b bs IH]; intros k s G C L; cbn [fold_left length] in *.
  - unfold work in L. destruct (w_at s) eqn:A; cbn in L; try lia. reflexivity.
  - assert (Q : w_at s = Dropped \/ w_at s <> Dropped) by (destruct (w_at s); auto; right; discriminate).
    destruct Q as [Q|Q].
    + rewrite dropped_pair by exact Q. clear -Q. revert Q. induction bs as [|b bs IH]; intros Q; [exact Q|]. cbn [fold_left].
      rewrite dropped_pair by exact Q. now apply IH.
    + destruct (pair_works n out st k s b H G C Q) as (k' & G' & C' & W). apply (IH k'); auto. lia.
Qed.
Lemma run_pairs bs : forall s, w_run s (flat_map (fun b => [W_step b; W_notify]) bs) = fold_left (fun s b => pair b s) bs s.
Proof. induction bs as [|b bs IH]; intros s; [reflexivity|]. cbn. exact (IH _). Qed.

Lemma while_ends ops n out st bs (more := flat_map (fun b => [W_step b; W_notify]) bs) :
  ~ In W_expire ops -> (forall e, ~ In (W_cancel e) ops) -> ~ In W_shutdown ops ->
  while_loop n = (out, Ends st) -> 6 * n + 10 <= length bs ->
  w_at (w_run s0 (ops ++ more)) = Dropped /\ w_written (w_run s0 (ops ++ more)) = out /\ w_status (w_run s0 (ops ++ more)) = Some st.
Proof.
  intros X C S H L. destruct (reach ops) as (k & _ & G & _).
  assert (D : w_at (w_run s0 (ops ++ more)) = Dropped).
  { unfold WhileModel.w_run. rewrite fold_left_app. fold (w_run s0 ops). unfold more.
    change (w_at (w_run (w_run s0 ops) (flat_map (fun b => [W_step b; W_notify]) bs)) = Dropped). rewrite run_pairs.
    apply (pairs_work n out st bs H k); auto; [now apply calm_run|].
    unfold work. assert (rank (w_at (w_run s0 ops)) <= 10) by (destruct (w_at _); cbn; lia). lia. }
  split; [exact D|].
  assert (N : forall o, In o more -> exists b, o = W_step b \/ o = W_notify).
  { intros o O. apply in_flat_map in O. destruct O as (b & _ & [O|[O|[]]]); exists b; auto. }
  assert (W : exists st', w_status (w_run s0 (ops ++ more)) = Some st' /\
            forall n, length (ops ++ more) <= n -> while_loop n = (w_written (w_run s0 (ops ++ more)), Ends st')).
  { apply while_complete; [| | |exact D].
    - intros O. apply in_app_or in O. destruct O as [O|O]; [auto|]. destruct (N _ O) as [b [B|B]]; discriminate.
    - intros e O. apply in_app_or in O. destruct O as [O|O]; [now apply (C e)|]. destruct (N _ O) as [b [B|B]]; discriminate.
    - intros O. apply in_app_or in O. destruct O as [O|O]; [auto|]. destruct (N _ O) as [b [B|B]]; discriminate. }
  destruct W as (st' & W1 & W2). specialize (W2 (n + length (ops ++ more)) (Nat.le_add_l _ _)).
  rewrite (loop_more n out st _ H (Nat.le_add_r _ _)) in W2. injection W2 as A B. split; congruence.
Qed.
End Top.
End Proofs.
