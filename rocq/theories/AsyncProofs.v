(** Proofs about asynchronous evaluation. *)
From Coq Require Import ZArith List Bool PeanoNat Lia.
From Verif Require Import FutureModel FutureProofs AsyncModel AsyncSpec.
Import ListNotations.
Local Open Scope nat_scope.

(** * Lists *)

Fixpoint nones {A} (l : list (option A)) : nat :=
  match l with
  | [] => 0
  | None :: l => S (nones l)
  | Some _ :: l => nones l
  end.

Lemma nones_update {A} (l : list (option A)) i v :
  nth_error l i = Some None -> S (nones (update l i (Some v))) = nones l.
Proof.
  revert i. induction l as [|x l IH]; intros [|i] E; try discriminate; cbn in *.
  - assert (x = None) by congruence. now subst x.
  - destruct x; cbn; rewrite <- (IH _ E); reflexivity.
Qed.

Lemma nones_none {A} (l : list (option A)) i : nth_error l i = Some None -> nones l > 0.
Proof.
  revert i. induction l as [|x l IH]; intros [|i] E; try discriminate; cbn in *.
  - assert (x = None) by congruence. subst x. lia.
  - destruct x; [|lia]. now apply (IH i).
Qed.

Lemma all_set_full {A} (l : list (option A)) :
  nones l = 0 -> exists vs, l = map Some vs /\ all_set l = Some vs.
Proof.
  induction l as [|[x|] l IH]; cbn; intros N; [now exists []| |discriminate].
  destruct (IH N) as [vs [-> E]]. exists (x :: vs). now rewrite E.
Qed.

Lemma future_inputs_spec {A} (l : list (option A)) : forall k,
  length (future_inputs k l) = nones l
  /\ NoDup (future_inputs k l)
  /\ forall i, In i (future_inputs k l) -> k <= i /\ nth_error l (i - k) = Some None.
Proof.
  induction l as [|[x|] l IH]; intros k; cbn [future_inputs nones length].
  - split; [reflexivity|]. split; [constructor|easy].
  - destruct (IH (S k)) as [L [D F]]. split; [assumption|]. split; [assumption|].
    intros i I. apply F in I. destruct I as [I1 I2]. split; [lia|].
    replace (i - k) with (S (i - S k)) by lia. exact I2.
  - destruct (IH (S k)) as [L [D F]]. split; [now rewrite L|]. split.
    + constructor; [|assumption]. intros I. apply F in I. lia.
    + intros i [<-|I]; [split; [lia|]; now rewrite Nat.sub_diag|].
      apply F in I. destruct I as [I1 I2]. split; [lia|].
      replace (i - k) with (S (i - S k)) by lia. exact I2.
Qed.

Lemma remove_length l i :
  NoDup l -> In i l -> S (length (remove Nat.eq_dec i l)) = length l.
Proof.
  induction l as [|x l IH]; intros D I; [easy|]. inversion D as [|? ? N D']; subst. cbn.
  destruct (Nat.eq_dec i x) as [->|NE].
  - now rewrite notin_remove.
  - cbn. rewrite IH; [reflexivity|assumption|]. destruct I; [congruence|assumption].
Qed.

Lemma nodup_remove l i : NoDup l -> NoDup (remove Nat.eq_dec i l).
Proof.
  induction l as [|x l IH]; intros D; [constructor|]. inversion D as [|? ? N D']; subst. cbn.
  destruct (Nat.eq_dec i x); [now apply IH|]. constructor; [|now apply IH].
  intros I. apply in_remove in I. tauto.
Qed.

Section Proofs.
  Context {value status : Type}.
  Variables orphaned missing_input : status.
  Variable eval : list value -> result value status.
  Notation countdown := (countdown value status).
  Notation observation := (@observation value status).
  Implicit Types (s : countdown) (t k : list observation).

  Lemma first_error_app t k :
    first_error (t ++ k)
    = match first_error t with Some st => Some st | None => first_error k end.
  Proof.
    induction t as [|[o out] t IH]; [reflexivity|]. cbn [app].
    destruct o as [i [v|st]|i|i|i|i|]; try exact IH. destruct out; try exact IH. reflexivity.
  Qed.

  Lemma filled_app l t k : filled l (t ++ k) = filled (filled l t) k.
  Proof.
    revert l. induction t as [|[o out] t IH]; intros l; [reflexivity|]. cbn [app].
    destruct o as [i [v|st]|i|i|i|i|]; try apply IH. destruct out; apply IH.
  Qed.

  (** Inputs that will never get a value. *)
  Fixpoint lost t : nat :=
    match t with
    | [] => 0
    | (Arrive _ (Error _), Done) :: t => S (lost t)
    | (DropConsumer _, Done) :: t => S (lost t)
    | _ :: t => lost t
    end.

  Lemma lost_app t k : lost (t ++ k) = lost t + lost k.
  Proof.
    induction t as [|[o out] t IH]; [reflexivity|]. cbn [app].
    destruct o as [i [v|st]|i|i|i|i|]; try exact IH; destruct out; try exact IH; cbn; now rewrite IH.
  Qed.

  (** * The invariant *)

  Inductive phase (l : list (option value)) t s : Prop :=
  | Waiting :
      result_writer s = InCountdown -> given s = None -> threads s = [] -> tasks s = [] ->
      input_values s = filled l t -> first_error t = None -> nones (filled l t) > 0 ->
      phase l t s
  | Failing st :
      result_writer s = InCountdown -> given s = None -> threads s = [ReportError st] ->
      tasks s = [] -> input_values s = filled l t -> first_error t = Some st ->
      phase l t s
  | Failed st :
      result_writer s = Used -> given s = Some (Error st) -> threads s = [] -> tasks s = [] ->
      input_values s = filled l t -> first_error t = Some st ->
      phase l t s
  | Complete :
      result_writer s = InCountdown -> given s = None -> threads s = [Schedule] -> tasks s = [] ->
      input_values s = filled l t -> first_error t = None -> nones (filled l t) = 0 ->
      phase l t s
  | Scheduled :
      result_writer s = InTask -> given s = None -> threads s = [] -> tasks s = [filled l t] ->
      first_error t = None -> nones (filled l t) = 0 ->
      phase l t s
  | Finished r :
      result_writer s = Used -> given s = Some r -> threads s = [] -> tasks s = [] ->
      first_error t = None -> awaited s = [] ->
      (exists vs, filled l t = map Some vs /\ r = eval vs) \/ (r = Error orphaned /\ dropped t) ->
      phase l t s.

  Record invariant (l : list (option value)) t s : Prop := Invariant {
    i_nodup : NoDup (awaited s);
    i_awaited : forall i, In i (awaited s) -> nth_error (filled l t) i = Some None;
    i_count : length (awaited s) + lost t = nones (filled l t);
    i_remaining : remaining_tasks s = Z.of_nat (nones (filled l t));
    i_flag : error_reported s = match first_error t with Some _ => true | None => false end;
    i_lost_error : first_error t <> None -> lost t > 0;
    i_lost : lost t > 0 -> first_error t <> None \/ dropped t;
    i_phase : phase l t s }.

  Lemma dropped_app t k : dropped t -> dropped (t ++ k).
  Proof. intros [i [I|I]]; exists i; [left|right]; apply in_or_app; now left. Qed.

  Lemma init_invariant l : invariant l [] (async_eval l).
  Proof.
    destruct (future_inputs_spec l 0) as [L [D F]].
    constructor; cbn; try easy.
    - intros i I. apply F in I. rewrite Nat.sub_0_r in I. apply I.
    - rewrite L. lia.
    - now rewrite L.
    - destruct (Nat.eqb_spec (length (future_inputs 0 l)) 0) as [E|E].
      + apply Complete; cbn; try reflexivity; [now rewrite E|lia].
      + apply Waiting; cbn; try reflexivity; [|lia].
        destruct (length (future_inputs 0 l)) eqn:Q; [congruence|reflexivity].
  Qed.

  Lemma existsb_in i l : existsb (Nat.eqb i) l = true <-> In i l.
  Proof.
    rewrite existsb_exists. split.
    - intros [x [I E]]. apply Nat.eqb_eq in E. now subst.
    - intros I. exists i. split; [assumption|apply Nat.eqb_refl].
  Qed.

  Lemma in_removed l i j : In j (remove Nat.eq_dec i l) -> In j l /\ i <> j.
  Proof. intros I. apply in_remove in I. split; [tauto|]. intros ->. tauto. Qed.

  (** A step that changes nothing. *)
  Lemma silent l t s o :
    invariant l t s -> invariant l (t ++ [(o, Impossible)]) s.
  Proof.
    intros [].
    assert (F : filled l (t ++ [(o, Impossible)]) = filled l t)
      by (rewrite filled_app; destruct o as [i [v|st]|i|i|i|i|]; reflexivity).
    assert (E : first_error (t ++ [(o, Impossible)]) = first_error t)
      by (rewrite first_error_app; destruct (first_error t); [reflexivity|];
          destruct o as [i [v|st]|i|i|i|i|]; reflexivity).
    assert (L : lost (t ++ [(o, Impossible)]) = lost t)
      by (rewrite lost_app; destruct o as [i [v|st]|i|i|i|i|]; cbn; lia).
    constructor; rewrite ?F, ?E, ?L; try assumption.
    - intros X. destruct (i_lost0 X) as [Y|Y]; [now left|right]. now apply dropped_app.
    - destruct i_phase0 as [? ? ? ? ? ?|st ? ? ? ? ? ?|st ? ? ? ? ? ?|? ? ? ? ? ?|? ? ? ? ?|r ? ? ? ? ? ? R];
        [apply Waiting|apply (Failing _ _ _ st)|apply (Failed _ _ _ st)|apply Complete|apply Scheduled|
         apply (Finished _ _ _ r)]; rewrite ?F, ?E; try assumption.
      destruct R as [R|[R1 R2]]; [now left|right; split; [assumption|now apply dropped_app]].
  Qed.

  Lemma step_invariant l t s o :
    invariant l t s ->
    let so := step orphaned missing_input eval s o in
    (snd so = Done \/ snd so = Impossible) /\ invariant l (t ++ [(o, snd so)]) (fst so).
  Proof.
    intros I so. unfold so. clear so. pose proof I as [D AW CNT REM FLAG LE LOST PH].
    destruct o as [i r|i|k|k|k|]; cbn [step].
    - destruct (existsb (Nat.eqb i) (awaited s)) eqn:EX; cbn [fst snd];
        [|split; [now right|now apply silent]].
      apply existsb_in in EX. pose proof (AW _ EX) as SLOT.
      pose proof (remove_length _ _ D EX) as RL.
      assert (ND : nones (filled l t) > 0) by now apply (nones_none _ i).
      (* nothing was scheduled yet *)
      assert (IV : input_values s = filled l t).
      { destruct PH; try assumption; try lia. rewrite H4 in EX. destruct EX. }
      destruct r as [v|st]; unfold set_input.
      + rewrite IV, SLOT. cbn [fst snd]. split; [now left|].
        assert (F : filled l (t ++ [(Arrive i (Value v), Done)]) = update (filled l t) i (Some v))
          by (rewrite filled_app; reflexivity).
        assert (E : first_error (t ++ [(Arrive i (Value v), Done)]) = first_error t)
          by (rewrite first_error_app; now destruct (first_error t)).
        assert (L : lost (t ++ [(Arrive i (Value v), Done)]) = lost t)
          by (rewrite lost_app; cbn; lia).
        pose proof (nones_update _ _ v SLOT) as NU.
        constructor; cbn [awaited remaining_tasks error_reported input_values];
          rewrite ?F, ?E, ?L; try assumption.
        * now apply nodup_remove.
        * intros j J. apply in_removed in J. destruct J as [J NE]. rewrite nth_update.
          destruct (Nat.eqb_spec i j); [congruence|]. now apply AW.
        * lia.
        * rewrite REM. lia.
        * intros X. destruct (LOST X) as [Y|Y]; [now left|right]. now apply dropped_app.
        * set (n := nones (update (filled l t) i (Some v))) in *.
          assert (RZ : (remaining_tasks s - 1 =? 0)%Z = (n =? 0)).
          { rewrite REM. destruct (Nat.eqb_spec n 0); [apply Z.eqb_eq|apply Z.eqb_neq]; lia. }
          rewrite RZ.
          destruct PH as [P1 P2 P3 P4 P5 P6 P7|e P1 P2 P3 P4 P5 P6|e P1 P2 P3 P4 P5 P6
                         |P1 P2 P3 P4 P5 P6 P7|P1 P2 P3 P4 P5 P6|e P1 P2 P3 P4 P5 P6 P7].
          -- rewrite FLAG, P6. cbn [negb]. rewrite andb_true_r.
             destruct (Nat.eqb_spec n 0).
             ++ apply Complete; cbn; rewrite ?F, ?E; try assumption; try reflexivity. now rewrite P3.
             ++ apply Waiting; cbn; rewrite ?F, ?E; try assumption; try reflexivity. fold n. lia.
          -- rewrite FLAG, P6. cbn [negb]. rewrite andb_false_r.
             apply (Failing _ _ _ e); cbn; rewrite ?F, ?E; try assumption; reflexivity.
          -- rewrite FLAG, P6. cbn [negb]. rewrite andb_false_r.
             apply (Failed _ _ _ e); cbn; rewrite ?F, ?E; try assumption; reflexivity.
          -- lia.
          -- lia.
          -- rewrite P6 in EX. destruct EX.
      + assert (X : forall ths,
          phase l (t ++ [(Arrive i (Error st), Done)])
            (Countdown (remaining_tasks s) true (input_values s) (result_writer s) (given s)
               (remove Nat.eq_dec i (awaited s)) ths (tasks s)) ->
          invariant l (t ++ [(Arrive i (Error st), Done)])
            (Countdown (remaining_tasks s) true (input_values s) (result_writer s) (given s)
               (remove Nat.eq_dec i (awaited s)) ths (tasks s))).
        { intros ths P.
          assert (F : filled l (t ++ [(Arrive i (Error st), Done)]) = filled l t)
            by (rewrite filled_app; reflexivity).
          assert (E : first_error (t ++ [(Arrive i (Error st), Done)]) <> None)
            by (rewrite first_error_app; destruct (first_error t); discriminate).
          assert (L : lost (t ++ [(Arrive i (Error st), Done)]) = S (lost t))
            by (rewrite lost_app; cbn; lia).
          constructor; cbn [awaited remaining_tasks error_reported input_values];
            rewrite ?F, ?L; try assumption; try lia.
          - now apply nodup_remove.
          - intros j J. apply in_removed in J. now apply AW.
          - destruct (first_error (t ++ [(Arrive i (Error st), Done)])); [reflexivity|congruence].
          - now left. }
        assert (F : filled l (t ++ [(Arrive i (Error st), Done)]) = filled l t)
          by (rewrite filled_app; reflexivity).
        rewrite FLAG.
        destruct PH as [P1 P2 P3 P4 P5 P6 P7|e P1 P2 P3 P4 P5 P6|e P1 P2 P3 P4 P5 P6
                       |P1 P2 P3 P4 P5 P6 P7|P1 P2 P3 P4 P5 P6|e P1 P2 P3 P4 P5 P6 P7];
          try lia; try (rewrite P6 in EX; now destruct EX); rewrite P6; cbn [fst snd];
          (split; [now left|]); apply X;
          [apply (Failing _ _ _ st)|apply (Failing _ _ _ e)|apply (Failed _ _ _ e)]; cbn;
          rewrite ?F, ?first_error_app, ?P6, ?P3; try assumption; reflexivity.
    - destruct (existsb (Nat.eqb i) (awaited s)) eqn:EX; cbn [fst snd];
        [|split; [now right|now apply silent]].
      apply existsb_in in EX. pose proof (AW _ EX) as SLOT.
      pose proof (remove_length _ _ D EX) as RL.
      assert (ND : nones (filled l t) > 0) by now apply (nones_none _ i).
      split; [now left|].
      assert (F : filled l (t ++ [(DropConsumer i, Done)]) = filled l t)
        by (rewrite filled_app; reflexivity).
      assert (E : first_error (t ++ [(DropConsumer i, Done)]) = first_error t)
        by (rewrite first_error_app; now destruct (first_error t)).
      assert (L : lost (t ++ [(DropConsumer i, Done)]) = S (lost t))
        by (rewrite lost_app; cbn; lia).
      constructor; cbn [awaited remaining_tasks error_reported input_values];
        rewrite ?F, ?E, ?L; try assumption; try lia.
      + now apply nodup_remove.
      + intros j J. apply in_removed in J. now apply AW.
      + intros _. right. exists i. left. apply in_or_app. right. now left.
      + destruct PH as [P1 P2 P3 P4 P5 P6 P7|e P1 P2 P3 P4 P5 P6|e P1 P2 P3 P4 P5 P6
                       |P1 P2 P3 P4 P5 P6 P7|P1 P2 P3 P4 P5 P6|e P1 P2 P3 P4 P5 P6 P7];
          try lia; try (rewrite P6 in EX; now destruct EX);
          [apply Waiting|apply (Failing _ _ _ e)|apply (Failed _ _ _ e)]; cbn;
          rewrite ?F, ?E; assumption.
    - assert (F : filled l (t ++ [(Step k, Done)]) = filled l t)
        by (rewrite filled_app; reflexivity).
      assert (E : first_error (t ++ [(Step k, Done)]) = first_error t)
        by (rewrite first_error_app; now destruct (first_error t)).
      assert (L : lost (t ++ [(Step k, Done)]) = lost t) by (rewrite lost_app; cbn; lia).
      assert (LOST' : lost t > 0 -> first_error t <> None \/ dropped (t ++ [(Step k, Done)])).
      { intros X. destruct (LOST X) as [Y|Y]; [now left|right]. now apply dropped_app. }
      destruct PH as [P1 P2 P3 P4 P5 P6 P7|e P1 P2 P3 P4 P5 P6|e P1 P2 P3 P4 P5 P6
                     |P1 P2 P3 P4 P5 P6 P7|P1 P2 P3 P4 P5 P6|e P1 P2 P3 P4 P5 P6 P7]; rewrite P3.
      + destruct k; (split; [now right|now apply silent]).
      + destruct k as [|k]; [|destruct k; (split; [now right|now apply silent])].
        cbn [nth_error]. unfold set_result. rewrite P1. cbn [fst snd]. split; [now left|].
        constructor; cbn [awaited remaining_tasks error_reported]; rewrite ?F, ?E, ?L; try assumption.
        apply (Failed _ _ _ e); cbn; rewrite ?F, ?E; try assumption; reflexivity.
      + destruct k; (split; [now right|now apply silent]).
      + destruct k as [|k]; [|destruct k; (split; [now right|now apply silent])].
        cbn [nth_error]. rewrite P1. cbn [fst snd]. split; [now left|].
        constructor; cbn [awaited remaining_tasks error_reported]; rewrite ?F, ?E, ?L; try assumption.
        apply Scheduled; cbn; rewrite ?F, ?E; try assumption; try reflexivity. now rewrite P4, P5.
      + destruct k; (split; [now right|now apply silent]).
      + destruct k; (split; [now right|now apply silent]).
    - assert (F : filled l (t ++ [(RunTask k, Done)]) = filled l t)
        by (rewrite filled_app; reflexivity).
      assert (E : first_error (t ++ [(RunTask k, Done)]) = first_error t)
        by (rewrite first_error_app; now destruct (first_error t)).
      assert (L : lost (t ++ [(RunTask k, Done)]) = lost t) by (rewrite lost_app; cbn; lia).
      assert (LOST' : lost t > 0 -> first_error t <> None \/ dropped (t ++ [(RunTask k, Done)])).
      { intros X. destruct (LOST X) as [Y|Y]; [now left|right]. now apply dropped_app. }
      destruct PH as [P1 P2 P3 P4 P5 P6 P7|e P1 P2 P3 P4 P5 P6|e P1 P2 P3 P4 P5 P6
                     |P1 P2 P3 P4 P5 P6 P7|P1 P2 P3 P4 P5 P6|e P1 P2 P3 P4 P5 P6 P7]; rewrite P4;
        try (destruct k; (split; [now right|now apply silent])).
      destruct k as [|k]; [|destruct k; (split; [now right|now apply silent])].
      cbn [nth_error]. unfold set_result. rewrite P1. cbn [fst snd]. split; [now left|].
      constructor; cbn [awaited remaining_tasks error_reported]; rewrite ?F, ?E, ?L; try assumption.
      destruct (all_set_full _ P6) as [vs [V1 V2]]. rewrite V2.
      apply (Finished _ _ _ (eval vs)); cbn; rewrite ?F, ?E; try assumption; try reflexivity.
      * apply length_zero_iff_nil. lia.
      * left. now exists vs.
    - assert (F : filled l (t ++ [(DropTask k, Done)]) = filled l t)
        by (rewrite filled_app; reflexivity).
      assert (E : first_error (t ++ [(DropTask k, Done)]) = first_error t)
        by (rewrite first_error_app; now destruct (first_error t)).
      assert (L : lost (t ++ [(DropTask k, Done)]) = lost t) by (rewrite lost_app; cbn; lia).
      assert (DR : dropped (t ++ [(DropTask k, Done)])).
      { exists k. right. apply in_or_app. right. now left. }
      destruct PH as [P1 P2 P3 P4 P5 P6 P7|e P1 P2 P3 P4 P5 P6|e P1 P2 P3 P4 P5 P6
                     |P1 P2 P3 P4 P5 P6 P7|P1 P2 P3 P4 P5 P6|e P1 P2 P3 P4 P5 P6 P7]; rewrite P4;
        try (destruct k; (split; [now right|now apply silent])).
      destruct k as [|k]; [|destruct k; (split; [now right|now apply silent])].
      cbn [nth_error]. unfold set_result. rewrite P1. cbn [fst snd]. split; [now left|].
      constructor; cbn [awaited remaining_tasks error_reported]; rewrite ?F, ?E, ?L; try assumption.
      + intros _. now right.
      + apply (Finished _ _ _ (Error orphaned)); cbn; rewrite ?F, ?E; try assumption; try reflexivity.
        * apply length_zero_iff_nil. lia.
        * now right.
    - destruct (awaited s) as [|a aw] eqn:A; [|split; [now right|now apply silent]].
      cbn [length] in CNT.
      destruct PH as [P1 P2 P3 P4 P5 P6 P7|e P1 P2 P3 P4 P5 P6|e P1 P2 P3 P4 P5 P6
                     |P1 P2 P3 P4 P5 P6 P7|P1 P2 P3 P4 P5 P6|e P1 P2 P3 P4 P5 P6 P7]; rewrite P3, ?P1;
        try (split; [now right|now apply silent]).
      assert (DR : dropped t) by (destruct LOST as [Y|Y]; [lia|congruence|assumption]).
      unfold set_result. rewrite P1. cbn [fst snd]. split; [now left|].
      assert (F : filled l (t ++ [(Release, Done)]) = filled l t)
        by (rewrite filled_app; reflexivity).
      assert (E : first_error (t ++ [(Release, Done)]) = first_error t)
        by (rewrite first_error_app; now destruct (first_error t)).
      assert (L : lost (t ++ [(Release, Done)]) = lost t) by (rewrite lost_app; cbn; lia).
      constructor; cbn [awaited remaining_tasks error_reported]; rewrite ?F, ?E, ?L, ?A;
        try assumption; try (now auto using dropped_app).
      apply (Finished _ _ _ (Error orphaned)); cbn; rewrite ?F, ?E; try assumption; try reflexivity.
      right. split; [reflexivity|now apply dropped_app].
  Qed.

  (** * Runs *)

  Notation run := (run orphaned missing_input eval).
  Notation observe := (observe orphaned missing_input eval).
  Notation after := (after orphaned missing_input eval).

  Lemma run_length ops : forall s, length (snd (run s ops)) = length ops.
  Proof.
    induction ops as [|o ops IH]; intros w; [reflexivity|]. cbn [AsyncModel.run snd length].
    now rewrite IH.
  Qed.

  Lemma run_app ops ops' : forall s,
    run s (ops ++ ops')
    = (fst (run (fst (run s ops)) ops'), snd (run s ops) ++ snd (run (fst (run s ops)) ops')).
  Proof.
    induction ops as [|o ops IH]; intros w; cbn [AsyncModel.run app fst snd].
    - now destruct (run w ops').
    - now rewrite IH.
  Qed.

  Lemma observe_snoc l ops o :
    observe l (ops ++ [o])
    = observe l ops ++ [(o, snd (step orphaned missing_input eval (after l ops) o))].
  Proof.
    unfold AsyncSpec.observe, AsyncSpec.after. rewrite run_app. cbn [snd].
    rewrite combine_app by now rewrite run_length. reflexivity.
  Qed.

  Lemma after_snoc l ops o :
    after l (ops ++ [o]) = fst (step orphaned missing_input eval (after l ops) o).
  Proof. unfold AsyncSpec.after. rewrite run_app. reflexivity. Qed.

  Lemma run_invariant l ops : invariant l (observe l ops) (after l ops).
  Proof.
    induction ops as [|o ops IH] using rev_ind; [apply init_invariant|].
    rewrite observe_snoc, after_snoc. now apply step_invariant.
  Qed.

  (** * The evaluation settles *)

  Definition measure s : nat :=
    4 * length (awaited s) + 3 * length (threads s) + 2 * length (tasks s)
    + match result_writer s with Used => 0 | _ => 1 end.

  Lemma remove_nth_length {A} (k : nat) (l : list A) x :
    nth_error l k = Some x -> S (length (remove_nth k l)) = length l.
  Proof.
    revert k. induction l as [|y l IH]; intros [|k] E; try discriminate; [reflexivity|].
    cbn in *. now rewrite (IH _ E).
  Qed.

  Lemma step_measure l t s o :
    invariant l t s -> snd (step orphaned missing_input eval s o) = Done ->
    measure (fst (step orphaned missing_input eval s o)) < measure s.
  Proof.
    intros [D AW CNT REM FLAG LE LOST PH]. unfold measure.
    destruct o as [i r|i|k|k|k|]; cbn [step].
    - destruct (existsb (Nat.eqb i) (awaited s)) eqn:EX; [|discriminate].
      apply existsb_in in EX. pose proof (remove_length _ _ D EX) as RL.
      destruct r as [v|st]; unfold set_input.
      + destruct (nth_error (input_values s) i) as [[x|]|]; try discriminate. intros _.
        cbn [fst awaited threads tasks result_writer].
        destruct (_ && _); rewrite ?app_length; cbn [length]; lia.
      + intros _. destruct (error_reported s); cbn [fst awaited threads tasks result_writer];
          rewrite ?app_length; cbn [length]; lia.
    - destruct (existsb (Nat.eqb i) (awaited s)) eqn:EX; [|discriminate].
      apply existsb_in in EX. pose proof (remove_length _ _ D EX) as RL. intros _.
      cbn [fst awaited threads tasks result_writer]. lia.
    - destruct (nth_error (threads s) k) as [[st|]|] eqn:E; [| |discriminate];
        apply remove_nth_length in E.
      + unfold set_result. destruct (result_writer s) eqn:W; try discriminate. intros _.
        cbn [fst awaited threads tasks result_writer]. lia.
      + destruct (result_writer s) eqn:W; try discriminate. intros _.
        cbn [fst awaited threads tasks result_writer]. rewrite app_length. cbn [length]. lia.
    - destruct (nth_error (tasks s) k) as [x|] eqn:E; [|discriminate].
      apply remove_nth_length in E.
      unfold set_result. destruct (result_writer s) eqn:W; try discriminate. intros _.
      cbn [fst awaited threads tasks result_writer]. lia.
    - destruct (nth_error (tasks s) k) as [x|] eqn:E; [|discriminate].
      apply remove_nth_length in E.
      unfold set_result. destruct (result_writer s) eqn:W; try discriminate. intros _.
      cbn [fst awaited threads tasks result_writer]. lia.
    - destruct (awaited s) eqn:A; [|discriminate]. destruct (threads s); [|discriminate].
      destruct (result_writer s) eqn:W; try discriminate. intros _.
      unfold set_result. rewrite W, A. cbn [fst awaited threads tasks result_writer length]. lia.
  Qed.

  Lemma run_measure l ops :
    length (filter done (observe l ops)) + measure (after l ops) <= measure (async_eval l).
  Proof.
    induction ops as [|o ops IH] using rev_ind; [cbn; lia|].
    rewrite observe_snoc, after_snoc, filter_app, app_length. cbn [filter].
    pose proof (run_invariant l ops) as I.
    pose proof (step_measure _ _ _ o I) as M.
    destruct (step_invariant _ _ _ o I) as [[X|X] _]; unfold done at 2; cbn [snd]; rewrite X.
    - specialize (M X). cbn [length]. lia.
    - enough (fst (step orphaned missing_input eval (after l ops) o) = after l ops) as ->
        by (cbn [length]; lia).
      clear -X I. destruct o as [i r|i|k|k|k|]; cbn [step] in *.
      + destruct (existsb _ _); [|reflexivity]. unfold set_input in *.
        destruct r; [|destruct (error_reported _); discriminate].
        destruct (nth_error _ i) as [[x|]|]; try discriminate; reflexivity.
      + destruct (existsb _ _); [discriminate|reflexivity].
      + destruct (nth_error _ k) as [[st|]|]; [| |reflexivity]; unfold set_result in *;
          destruct (result_writer _); discriminate.
      + destruct (nth_error _ k); [|reflexivity]. unfold set_result in *.
        destruct (result_writer _); discriminate.
      + destruct (nth_error _ k); [|reflexivity]. unfold set_result in *.
        destruct (result_writer _); discriminate.
      + destruct (awaited _); [|reflexivity]. destruct (threads _); [|reflexivity].
        destruct (result_writer _) eqn:W; try reflexivity. unfold set_result in X. rewrite W in X.
        discriminate.
  Qed.

  Lemma settled_given l ops :
    settled orphaned missing_input eval (after l ops) -> given (after l ops) <> None.
  Proof.
    intros S. pose proof (run_invariant l ops) as [D AW CNT REM FLAG LE LOST PH].
    set (s := after l ops) in *.
    assert (A : awaited s = []).
    { destruct (awaited s) as [|i aw] eqn:A; [reflexivity|]. specialize (S (DropConsumer i)).
      cbn [step] in S. rewrite A in S. cbn [existsb] in S. rewrite Nat.eqb_refl in S. discriminate. }
    destruct PH as [P1 P2 P3 P4 P5 P6 P7|e P1 P2 P3 P4 P5 P6|e P1 P2 P3 P4 P5 P6
                   |P1 P2 P3 P4 P5 P6 P7|P1 P2 P3 P4 P5 P6|e P1 P2 P3 P4 P5 P6 P7]; try congruence.
    - specialize (S Release). cbn [step] in S. rewrite A, P3, P1 in S.
      unfold set_result in S. rewrite P1 in S. discriminate.
    - specialize (S (Step 0)). cbn [step] in S. rewrite P3 in S. cbn [nth_error] in S.
      unfold set_result in S. rewrite P1 in S. discriminate.
    - specialize (S (Step 0)). cbn [step] in S. rewrite P3 in S. cbn [nth_error] in S.
      rewrite P1 in S. discriminate.
    - specialize (S (RunTask 0)). cbn [step] in S. rewrite P4 in S. cbn [nth_error] in S.
      unfold set_result in S. rewrite P1 in S. discriminate.
  Qed.

  Lemma given_stable l ops o r :
    given (after l ops) = Some r -> given (after l (ops ++ [o])) = Some r.
  Proof.
    intros G. rewrite after_snoc.
    pose proof (run_invariant l ops) as [D AW CNT REM FLAG LE LOST PH].
    set (s := after l ops) in *.
    assert (W : result_writer s = Used) by (destruct PH; congruence).
    destruct o as [i x|i|k|k|k|]; cbn [step].
    - destruct (existsb _ _); [|assumption]. unfold set_input. destruct x.
      + destruct (nth_error _ i) as [[y|]|]; assumption.
      + destruct (error_reported s); assumption.
    - destruct (existsb _ _); assumption.
    - destruct (nth_error _ k) as [[st|]|]; [| |assumption]; unfold set_result; rewrite W; assumption.
    - destruct (nth_error _ k); [|assumption]. unfold set_result. rewrite W. assumption.
    - destruct (nth_error _ k); [|assumption]. unfold set_result. rewrite W. assumption.
    - destruct (awaited s), (threads s); try assumption. now rewrite W.
  Qed.
End Proofs.
