(** Proofs about the runs of loops over streams. *)
From Coq Require Import String.
From Coq Require Import List Bool Arith Lia.
From Verif Require Import ForModel ForSpec ForProofs.
Import ListNotations.
Local Open Scope list_scope.

Section Run.
Variables (value type E : Type).
Variable type_of : value -> type.
Variable type_eqb : type -> type -> bool.
Hypothesis type_eqb_spec : forall a b, type_eqb a b = true <-> a = b.
Variables (m : mode) (f : functors value E) (last : string) (initial : value) (l0 : variables value).
Hypothesis names : NoDup (map fst l0).
Hypothesis fresh : ~ In last (map fst l0).

Notation loop := (loop type_of type_eqb m f last initial).
Notation exhausted := (exhausted type_of type_eqb m f last initial).
Notation outcome := (outcome type_of type_eqb m last initial).
Notation finished := (finished m last).
Notation looped := (looped type_of type_eqb m f last initial l0).
Notation step := (step type_of type_eqb m f initial).
Notation routine_step := (routine_step type_of type_eqb m f initial).
Notation sigs := (sigs value type type_of).
Notation state := (state value E).
Notation variables := (variables value).
Notation wellsig := (fun l => sigs l = sigs (l0 ++ [(last, initial)])).

Definition after_body (v : value) (items : list value) (c : option (option E)) (l : variables) : list value * ending E :=
  match outcome (body f v l) l with
  | inr e => ([], Ends (Err e))
  | inl (l, out) => then_ out (loop items c l)
  end.
Definition going (items : list value) (c : option (option E)) (l : variables) : list value * ending E :=
  match items with [] => exhausted c l | x :: items => after_body x items c l end.
Definition by_condition (c : condition E) (items : list value) (cl : option (option E)) (l : variables) : list value * ending E :=
  match c with
  | Bad e => ([], Ends (Err (Given e)))
  | No => finished l
  | Yes => going items cl l
  end.
Lemma loop_eq items c l :
  loop items c l = by_condition (match loop_condition f with None => Yes | Some c => c l end) items c l.
Proof. destruct items; reflexivity. Qed.

(** What is still to come *)
Definition cont (p : pc value E) (chg : bool) (l : variables) (rest : list value) (c : option (option E)) : list value * ending E :=
  let a := arguments m l in
  match p with
  | Queued On_input | Subscribing On_input | Waiting On_input | Reading => going rest c a
  | Queued _ | Subscribing _ | Waiting _ | Calling_condition => loop rest c a
  | Calling_body v => after_body v rest c a
  | Finalizing => exhausted (Some None) a
  | Yielding final =>
      then_ (if chg then match last_value l with Some v => [v] | None => [] end else [])
        (if final then finished a else loop rest c a)
  | Succeeding => finished a
  | Closing => ([], Ends OK)
  | Failing e => ([], Ends (Err e))
  | Leaving | Gone => ([], Going)
  end.

(** What the input may become *)
Definition later (s : state) (more : list value) (c : option (option E)) : Prop :=
  in_closed s = None \/ (more = [] /\ c = in_closed s).
Definition in_future (s : state) (P : list value * ending E -> Prop) : Prop :=
  forall more c, later s more c -> P (looped (log s ++ more) c).

Definition exact (s : state) : Prop :=
  (forall more c, later s more c ->
     looped (log s ++ more) c = then_ (written s) (cont (at_ s) (changed s) (vars s) (skipn (position s) (log s) ++ more) c)) /\
  match at_ s with Yielding _ => m = Yields | _ => m = Yields -> changed s = false end.
Definition doomed (s : state) : Prop :=
  orphaned s = true /\ (at_ s = Calling_condition \/ at_ s = Succeeding \/ at_ s = Closing).

Definition phase (s : state) : Prop :=
  match at_ s with
  | Leaving => flag s = true \/ expired s = true \/ cancelled s <> None \/ shut s = true
  | Gone => flag s = true
  | _ => exact s \/ doomed s
  end.

Record inv (s : state) : Prop := {
  i_sigs : wellsig (vars s);
  i_pos : position s <= length (log s);
  i_status : out_status s <> None -> flag s = true;
  i_cancel : forall e, cancelling s = Some e -> flag s = true /\ cancelled s = Some e /\ out_status s = None;
  i_flag : flag s = true -> out_status s <> None \/ expired s = true \/ cancelling s <> None;
  i_phase : phase s;
  i_ok : out_status s = Some OK -> in_future s (fun t => t = (written s, Ends OK));
  i_err : forall e, out_status s = Some (Err e) ->
            in_future s (fun t => t = (written s, Ends (Err e))) \/
            (exists c, cancelled s = Some c /\ e = Cancelled c) \/
            (e = Orphaned /\ (cancelled s <> None \/ shut s = true));
  i_prefix : m = Yields \/ cancelled s = None -> in_future s (fun t => prefix (written s) (fst t)) }.

Lemma then_nil (x : list value * ending E) : then_ [] x = x.
Proof. now destruct x. Qed.
Lemma then_then a b (x : list value * ending E) : then_ (a ++ b) x = then_ a (then_ b x).
Proof. unfold then_; cbn [fst snd]. now rewrite app_assoc. Qed.
Lemma skipn_app_le {A} n (a b : list A) : n <= length a -> skipn n (a ++ b) = skipn n a ++ b.
Proof. intros H. rewrite skipn_app. replace (n - length a) with 0 by lia. reflexivity. Qed.
Lemma skipn_nth {A} n (l : list A) x : nth_error l n = Some x -> skipn n l = x :: skipn (S n) l.
Proof.
  revert n; induction l as [|y l IH]; intros [|n] H; try discriminate H; cbn in *; [now injection H as ->|].
  rewrite (IH _ H). now destruct l.
Qed.
Lemma exact_prefix s : exact s -> in_future s (fun t => prefix (written s) (fst t)).
Proof. intros [X _] more c L. rewrite (X more c L). now eexists. Qed.

Lemma start_inv s : start m last initial l0 = Some s -> inv s.
Proof.
  unfold start. destruct (existsb _ _); [discriminate|]. intros [= <-].
  assert (X : exact (State value E [] None 0 (Subscribing At_start) (l0 ++ [(last, initial)]) false
               (match m with Yields => [initial] | Returns => [] end) None false false None false None false)).
  { split; [|cbn; intros _; reflexivity]. intros more c L. cbn [log written at_ vars changed position skipn app cont].
    unfold ForSpec.looped. destruct m; cbn [arguments]; [now rewrite then_nil|]. now rewrite removelast_last. }
  constructor; cbn; try congruence; try lia.
  - reflexivity.
  - left; exact X.
  - intros _. exact (exact_prefix _ X).
Qed.

(** * Steps of others *)
Lemma phase_env (s s' : state) : phase s ->
  at_ s' = at_ s -> vars s' = vars s -> changed s' = changed s -> written s' = written s -> position s' = position s ->
  (flag s = true -> flag s' = true) -> (expired s = true -> expired s' = true) ->
  (cancelled s <> None -> cancelled s' <> None) -> shut s' = shut s -> position s <= length (log s) ->
  (forall more c, later s' more c -> exists more', log s' ++ more = log s ++ more' /\ later s more' c) ->
  phase s'.
Proof.
  intros P A V C W N F X K SH L FU.
  assert (EX : exact s -> exact s').
  { intros [H1 H2]. split; [|now rewrite C, A]. intros more c Q. destruct (FU more c Q) as (more' & Q1 & Q2).
    rewrite Q1, (H1 more' c Q2), A, C, V, W, N. rewrite <- !skipn_app_le in *; try exact L; [now rewrite Q1|].
    apply (f_equal (@length value)) in Q1. rewrite !app_length in Q1.
    destruct Q as [Q|[-> Q]]; [|cbn in Q1; lia].
    destruct (FU [] c) as (m2 & Q3 & _); [now left|]. apply (f_equal (@length value)) in Q3. rewrite !app_length in Q3. cbn in Q3. lia. }
  assert (DO : doomed s -> doomed s').
  { intros [H1 H2]. split; [|now rewrite A]. unfold orphaned in *. apply orb_true_iff in H1. apply orb_true_iff. tauto. }
  unfold phase in *. rewrite A, SH. destruct (at_ s); tauto.
Qed.

Lemma goto_same (s : state) : goto (at_ s) s = s.
Proof. now destruct s. Qed.

Lemma write_inv s v : inv s -> inv (step s (Write_input v)).
Proof.
  intros H. cbn [ForModel.step]. destruct (in_closed s) as [c0|] eqn:C; [exact H|].
  assert (F : forall P, in_future s P -> in_future (State value E (log s ++ [v]) None (position s) (at_ s) (vars s) (changed s) (written s) (out_status s) (flag s)
                  (expired s) (cancelled s) (notified s) (cancelling s) (shut s)) P).
  { intros P HP more c L. cbn [log]. rewrite <- app_assoc. apply HP. now left. }
  destruct H as [h1 h2 h3 h4 h5 h6 h7 h8 h9]. constructor; cbn; auto.
  - rewrite app_length; lia.
  - apply phase_env with s; auto. intros more c L. exists (v :: more). cbn [log]. rewrite <- app_assoc. split; [reflexivity|now left].
  - intros e He. destruct (h8 e He) as [X|X]; auto.
Qed.
Lemma close_inv s c0 : inv s -> inv (step s (Close_input c0)).
Proof.
  intros H. cbn [ForModel.step]. destruct (in_closed s) as [c1|] eqn:C; [exact H|].
  assert (F : forall P, in_future s P -> in_future (State value E (log s) (Some c0) (position s) (at_ s) (vars s) (changed s) (written s) (out_status s) (flag s)
                  (expired s) (cancelled s) (notified s) (cancelling s) (shut s)) P).
  { intros P HP more c L. cbn [log]. apply HP. now left. }
  destruct H as [h1 h2 h3 h4 h5 h6 h7 h8 h9]. constructor; cbn; auto.
  - apply phase_env with s; auto. intros more c L. exists more. split; [reflexivity|now left].
  - intros e He. destruct (h8 e He) as [X|X]; auto.
Qed.
Lemma expire_inv s : inv s -> inv (step s Expire).
Proof.
  intros [h1 h2 h3 h4 h5 h6 h7 h8 h9]. constructor; cbn; auto.
  apply phase_env with s; auto. intros more c L. now exists more.
Qed.
Lemma cancel_inv s e : inv s -> inv (step s (Cancel e)).
Proof.
  intros H. cbn [ForModel.step]. destruct (cancelled s) as [e0|] eqn:C; [exact H|].
  destruct H as [h1 h2 h3 h4 h5 h6 h7 h8 h9]. constructor; cbn; auto.
  - intros e1 H1. destruct (h4 e1 H1) as (_ & H2 & _). congruence.
  - apply phase_env with s; cbn; auto. intros more c L. now exists more.
  - intros e1 H1. destruct (h8 e1 H1) as [X|[(c & X & _)|[X Y]]]; [now left|congruence|].
    right; right. split; [exact X|]. left; discriminate.
Qed.
Lemma call_inv s : inv s -> inv (step s Call_on_cancel).
Proof.
  intros H. cbn [ForModel.step]. destruct (cancelled s) as [e|] eqn:C; [|exact H].
  destruct (notified s) eqn:N; [now destruct (at_ s)|].
  assert (inv (State value E (log s) (in_closed s) (position s) (at_ s) (vars s) (changed s) (written s) (out_status s) true
            (expired s) (Some e) true (if flag s then cancelling s else Some e) (shut s))) as G.
  { destruct H as [h1 h2 h3 h4 h5 h6 h7 h8 h9]. constructor; cbn; auto.
    - destruct (flag s) eqn:F.
      + intros e1 H1. destruct (h4 e1 H1) as (_ & H2 & H3). rewrite C in H2. auto.
      + intros e1 [= <-]. repeat split. destruct (out_status s); [|reflexivity].
        assert (false = true) by (apply h3; discriminate). discriminate.
    - intros _. destruct (flag s); [now apply h5|]. right; right; discriminate.
    - apply phase_env with s; cbn; auto; [discriminate|]. intros more c L. now exists more.
    - intros e1 H1. rewrite <- C. exact (h8 e1 H1).
    - rewrite <- C. exact h9. }
  destruct (at_ s) eqn:A; try exact G. exact H.
Qed.
Lemma close_cancelled_inv s : inv s -> inv (step s Close_cancelled).
Proof.
  intros H. cbn [ForModel.step]. destruct (cancelling s) as [e|] eqn:C; [|exact H].
  destruct H as [h1 h2 h3 h4 h5 h6 h7 h8 h9]. destruct (h4 e C) as (F & CC & O).
  constructor; cbn.
  - exact h1.
  - exact h2.
  - intros _; exact F.
  - discriminate.
  - intros _. destruct (expired s); [now right; left|]. left; discriminate.
  - apply phase_env with s; cbn; auto. intros more c L. now exists more.
  - destruct (expired s); [now rewrite O|discriminate].
  - intros e1. destruct (expired s); [now rewrite O|]. intros [= <-]. right; left. now exists e.
  - exact h9.
Qed.
Lemma shutdown_inv s : inv s -> inv (step s Shutdown).
Proof.
  intros H. cbn [ForModel.step]. destruct (at_ s) eqn:A; try exact H.
  destruct H as [h1 h2 h3 h4 h5 h6 h7 h8 h9]. constructor; auto.
  { unfold phase; cbn. now right; right; right. }
  cbn. intros e He. destruct (h8 e He) as [X|[X|[X Y]]]; [now left|now right; left|]. right; right. now split; [|right].
Qed.

(** * Steps of the routine *)
(** Going on without a change of the output *)
Lemma move_inv s (p : pc value E) l chg n :
  inv s -> wellsig l -> n <= length (log s) ->
  match p with
  | Leaving => flag s = true \/ expired s = true \/ cancelled s <> None \/ shut s = true
  | Gone => flag s = true
  | _ => let s' := State value E (log s) (in_closed s) n p l chg (written s) (out_status s) (flag s) (expired s)
                     (cancelled s) (notified s) (cancelling s) (shut s) in exact s' \/ doomed s'
  end ->
  inv (State value E (log s) (in_closed s) n p l chg (written s) (out_status s) (flag s) (expired s)
         (cancelled s) (notified s) (cancelling s) (shut s)).
Proof. intros [h1 h2 h3 h4 h5 h6 h7 h8 h9] W N P. constructor; auto. Qed.

(** The same position of the input, other variables *)
Lemma exact_move s p l chg :
  exact s ->
  (forall more c, later s more c ->
     cont (at_ s) (changed s) (vars s) (skipn (position s) (log s) ++ more) c = cont p chg l (skipn (position s) (log s) ++ more) c) ->
  match p with Yielding _ => m = Yields | _ => m = Yields -> chg = false end ->
  exact (State value E (log s) (in_closed s) (position s) p l chg (written s) (out_status s) (flag s) (expired s)
           (cancelled s) (notified s) (cancelling s) (shut s)).
Proof. intros [X Y] H Z. split; cbn; [|exact Z]. intros more c L. now rewrite (X more c L), (H more c L). Qed.
Lemma live_exact s : (exact s \/ doomed s) -> at_ s <> Calling_condition -> at_ s <> Succeeding -> at_ s <> Closing -> exact s.
Proof. intros [X|[_ [D|[D|D]]]]; auto; contradiction. Qed.
Lemma live_exact2 s : (exact s \/ doomed s) -> orphaned s = false -> exact s.
Proof. intros [X|[D _]]; auto. congruence. Qed.

(** Closing the output *)
Lemma close_out s st p :
  inv s -> p = Leaving \/ p = Gone ->
  (flag s = false -> expired s = false ->
     in_future s (fun t => t = (written s, Ends st)) \/
     (st = Err Orphaned /\ (cancelled s <> None \/ shut s = true))) ->
  inv (goto p (try_close st s)).
Proof.
  intros H P X. assert (PP : forall s' : state, flag s' = true -> match p with
            | Leaving => flag s' = true \/ expired s' = true \/ cancelled s' <> None \/ shut s' = true
            | Gone => flag s' = true
            | _ => exact s' \/ doomed s'
            end) by (destruct P as [-> | ->]; auto).
  unfold try_close. destruct (flag s) eqn:F.
  - unfold goto. apply move_inv; [exact H|exact (i_sigs _ H)|exact (i_pos _ H)|].
    destruct P as [-> | ->]; auto.
  - unfold goto; cbn. destruct H as [h1 h2 h3 h4 h5 h6 h7 h8 h9].
    assert (O : out_status s = None).
    { destruct (out_status s) eqn:O; [|reflexivity]. exfalso. assert (flag s = true) by (apply h3; discriminate). congruence. }
    assert (K : cancelling s = None).
    { destruct (cancelling s) as [e|] eqn:K; [|reflexivity]. destruct (h4 e eq_refl); congruence. }
    constructor; cbn; auto; rewrite ?O, ?K; try congruence.
    + intros _. destruct (expired s); [now right; left|]. left; discriminate.
    + unfold phase; cbn. destruct P as [-> | ->]; auto.
    + destruct (expired s) eqn:Q; [discriminate|]. intros [= ->]. destruct (X eq_refl eq_refl) as [Y|[Y _]]; [exact Y|discriminate].
    + intros e. destruct (expired s) eqn:Q; [discriminate|]. intros [= ->].
      destruct (X eq_refl eq_refl) as [Y|[[= ->] Y]]; [now left|]. right; right. now split.
Qed.

Lemma exact_ends s st : exact s -> (forall rest c, cont (at_ s) (changed s) (vars s) rest c = ([], Ends st)) ->
  in_future s (fun t => t = (written s, Ends st)).
Proof. intros [X _] H more c L. rewrite (X more c L), H. unfold then_; cbn. now rewrite app_nil_r. Qed.

Lemma with_condition_inv s c : inv s -> exact s ->
  (forall rest cl, cont (at_ s) (changed s) (vars s) rest cl = by_condition c rest cl (arguments m (vars s))) ->
  (m = Yields -> changed s = false) ->
  inv (with_condition c s).
Proof.
  intros H X K CH. destruct c; cbn [with_condition]; unfold goto;
    (apply move_inv; [exact H|exact (i_sigs _ H)|exact (i_pos _ H)|]); left;
    (apply exact_move; [exact X| |exact CH]); intros more cl L; now rewrite K.
Qed.

Lemma apply_update_inv s r (final : bool) : inv s -> exact s -> orphaned s = false ->
  (m = Yields -> changed s = false) ->
  (forall more cl, later s more cl ->
     cont (at_ s) (changed s) (vars s) (skipn (position s) (log s) ++ more) cl =
     match outcome r (arguments m (vars s)) with
     | inr e => ([], Ends (Err e))
     | inl (l, out) => then_ out (if final then finished l else loop (skipn (position s) (log s) ++ more) cl l)
     end) ->
  inv (apply_update type_of type_eqb m r final s).
Proof.
  intros H X O CH K. unfold apply_update.
  pose proof (update_outcome value type E type_of type_eqb type_eqb_spec m last initial l0 names fresh (vars s) r (i_sigs _ H)) as U.
  destruct (update type_of type_eqb (vars s) r) as [l'|e].
  - destruct U as (W & out & OC & U1 & U2). unfold set_vars.
    assert (MM : m = Returns \/ m = Yields) by (destruct m; auto). destruct MM as [M|M].
    + rewrite M. specialize (U1 M). subst out. unfold goto; cbn.
      apply (move_inv s); [exact H|exact W|exact (i_pos _ H)|].
      destruct final; left; (apply exact_move; [exact X| |congruence]); intros more cl L; now rewrite (K more cl L), OC, then_nil.
    + rewrite M at 1. specialize (U2 M). unfold goto; cbn.
      apply (move_inv s); [exact H|exact W|exact (i_pos _ H)|].
      left. apply exact_move; [exact X| |exact M].
      intros more cl L. rewrite (K more cl L), OC, U2. cbn [cont]. rewrite (CH M). reflexivity.
  - unfold goto. apply move_inv; [exact H|exact (i_sigs _ H)|exact (i_pos _ H)|]. left.
    apply exact_move; [exact X| |exact CH].
    intros more cl L. rewrite (K more cl L), U. reflexivity.
Qed.

Lemma exact_changed s : exact s -> (forall fin, at_ s <> Yielding fin) -> m = Yields -> changed s = false.
Proof. intros [_ Y] N M. destruct (at_ s); auto. now destruct (N final). Qed.

(** Going on to another place *)
Lemma goto_exact s p : inv s -> exact s -> (forall fin, at_ s <> Yielding fin) ->
  p <> Leaving -> p <> Gone -> match p with Yielding _ => False | _ => True end ->
  (forall more c, later s more c ->
     cont (at_ s) (changed s) (vars s) (skipn (position s) (log s) ++ more) c = cont p (changed s) (vars s) (skipn (position s) (log s) ++ more) c) ->
  inv (goto p s).
Proof.
  intros H X N P1 P2 P3 K. unfold goto. apply move_inv; [exact H|exact (i_sigs _ H)|exact (i_pos _ H)|].
  assert (EX : exact (State value E (log s) (in_closed s) (position s) p (vars s) (changed s) (written s) (out_status s) (flag s) (expired s)
           (cancelled s) (notified s) (cancelling s) (shut s))).
  { apply exact_move; [exact X|exact K|]. pose proof (exact_changed s X N). destruct p; auto; contradiction. }
  destruct p; try (left; exact EX); contradiction.
Qed.
Lemma goto_doomed s p : inv s -> orphaned s = true -> p = Calling_condition \/ p = Succeeding \/ p = Closing -> inv (goto p s).
Proof.
  intros H O P. unfold goto. apply move_inv; [exact H|exact (i_sigs _ H)|exact (i_pos _ H)|].
  destruct P as [-> | [-> | ->]]; right; (split; [exact O|cbn [at_]; tauto]).
Qed.
Lemma goto_leaving s : inv s -> interrupted s = true -> inv (goto Leaving s).
Proof.
  intros H I. unfold goto. apply move_inv; [exact H|exact (i_sigs _ H)|exact (i_pos _ H)|].
  unfold interrupted in I. destruct (cancelled s); [right; right; left; discriminate|].
  unfold orphaned in I. apply orb_true_iff in I. tauto.
Qed.
Lemma phase_at s : inv s -> at_ s <> Leaving -> at_ s <> Gone -> exact s \/ doomed s.
Proof. intros H. pose proof (i_phase _ H) as P. unfold phase in P. destruct (at_ s); auto; contradiction. Qed.

(** Writing to the output: the state after a write that succeeds *)
Lemma write_out s v p l chg :
  inv s -> expired s = false -> out_status s = None -> wellsig l ->
  match p with Leaving | Gone => False | _ => True end ->
  (let s' := State value E (log s) (in_closed s) (position s) p l chg (written s ++ [v]) None (flag s) false
           (cancelled s) (notified s) (cancelling s) (shut s) in
     exact s' \/ (doomed s' /\ (m = Yields \/ cancelled s = None -> False))) ->
  inv (State value E (log s) (in_closed s) (position s) p l chg (written s ++ [v]) None (flag s) false
         (cancelled s) (notified s) (cancelling s) (shut s)).
Proof.
  cbv zeta. intros [h1 h2 h3 h4 h5 h6 h7 h8 h9] X O W P D. rewrite O in *. rewrite X in h5.
  constructor; cbn; auto; try discriminate.
  - unfold phase; cbn. destruct p; tauto.
  - intros C. destruct D as [D|[_ D]]; [|now destruct (D C)]. exact (exact_prefix _ D).
Qed.

Lemma routine_inv s now : inv s -> inv (routine_step now s).
Proof.
  intros H. pose proof (phase_at s H) as PH. unfold ForModel.routine_step.
  destruct (at_ s) as [w| | |v|fin| | | |e|w|w| |] eqn:A.
  - (* Queued *)
    assert (X : exact s) by (apply live_exact; [apply PH; discriminate|now rewrite A..]).
    destruct w.
    + apply goto_exact; try (now rewrite A); try discriminate; auto.
    + apply goto_exact; try (now rewrite A); try discriminate; auto.
    + destruct (loop_condition f) as [c|] eqn:LC; [|exact H].
      apply with_condition_inv; auto.
      * intros rest cl. rewrite A. cbn [cont]. now rewrite loop_eq, LC.
      * apply exact_changed; [exact X|now rewrite A].
  - (* Calling_condition *)
    destruct (orphaned s) eqn:O; [apply goto_doomed; auto|].
    assert (X : exact s) by (apply live_exact2; [apply PH; discriminate|exact O]).
    destruct (loop_condition f) as [c|] eqn:LC.
    + destruct now.
      * apply with_condition_inv; auto.
        -- intros rest cl. rewrite A. cbn [cont]. now rewrite loop_eq, LC.
        -- apply exact_changed; [exact X|now rewrite A].
      * apply goto_exact; try (now rewrite A); try discriminate; auto.
    + apply goto_exact; try (now rewrite A); try discriminate; auto. rewrite A. intros more cl L.
      cbn [cont]. now rewrite loop_eq, LC.
  - (* Reading *)
    assert (X : exact s) by (apply live_exact; [apply PH; discriminate|now rewrite A..]).
    destruct (nth_error (log s) (position s)) as [v|] eqn:NE.
    + unfold goto; cbn. apply (move_inv s); [exact H|exact (i_sigs _ H)| |].
      * apply nth_error_Some. congruence.
      * left. split; cbn [log in_closed position at_ vars changed written].
        -- intros more c L. rewrite (proj1 X more c L), A, (skipn_nth _ _ _ NE). reflexivity.
        -- apply exact_changed; [exact X|now rewrite A].
    + assert (SK : skipn (position s) (log s) = []) by (apply skipn_all2; now apply nth_error_None).
      destruct (in_closed s) as [[e|]|] eqn:IC.
      * apply goto_exact; try (now rewrite A); try discriminate; auto. rewrite A. intros more c [L|[-> ->]]; [congruence|].
        rewrite SK, IC. reflexivity.
      * apply goto_exact; try (now rewrite A); try discriminate; auto. rewrite A. intros more c [L|[-> ->]]; [congruence|].
        rewrite SK, IC. reflexivity.
      * apply goto_exact; try (now rewrite A); try discriminate; auto.
  - (* Calling_body *)
    destruct (orphaned s) eqn:O; [apply goto_doomed; auto|].
    assert (X : exact s) by (apply live_exact2; [apply PH; discriminate|exact O]).
    apply apply_update_inv; auto.
    + apply exact_changed; [exact X|now rewrite A].
    + intros more cl L. rewrite A. reflexivity.
  - (* Yielding *)
    assert (X : exact s) by (apply live_exact; [apply PH; discriminate|now rewrite A..]).
    destruct (changed s) eqn:CH.
    + destruct (last_value (vars s)) as [v|] eqn:LV; [|exact H].
      unfold try_write. destruct (expired s) eqn:EX.
      { apply goto_doomed; [exact H|unfold orphaned; rewrite EX; apply orb_true_r|]. destruct fin; auto. }
      destruct (out_status s) eqn:OS.
      { apply goto_doomed; [exact H| |destruct fin; auto]. unfold orphaned. rewrite (i_status _ H); [reflexivity|congruence]. }
      cbn [ForModel.vars]. unfold goto, set_vars; cbn. rewrite ?OS, ?EX.
      destruct (set_last_sigs value type type_of last initial l0 (vars s) initial (i_sigs _ H) eq_refl) as [S1 S2].
      apply (write_out s); auto; [now destruct fin|].
      left. split; cbn [log in_closed position at_ vars changed written]; [|now destruct fin].
      intros more c L. rewrite (proj1 X more c L), A, then_then. f_equal. cbn [cont]. rewrite CH, LV. f_equal.
      assert (AR : arguments m (set_last (vars s) initial) = arguments m (vars s)).
      { pose proof (proj2 X) as M. rewrite A in M. now rewrite M. }
      destruct fin; cbn [cont]; now rewrite AR.
    + unfold goto. apply move_inv; [exact H|exact (i_sigs _ H)|exact (i_pos _ H)|].
      assert (EX2 : exact (State value E (log s) (in_closed s) (position s) (if fin then Succeeding else Calling_condition) (vars s) (changed s) (written s) (out_status s) (flag s) (expired s)
           (cancelled s) (notified s) (cancelling s) (shut s))).
      { apply exact_move; [exact X| |now destruct fin]. intros more c L. rewrite A, CH. cbn [cont]. rewrite then_nil. now destruct fin. }
      rewrite CH in EX2. rewrite ?CH. destruct fin; left; exact EX2.
  - (* Finalizing *)
    destruct (orphaned s) eqn:O; [apply goto_doomed; auto|].
    assert (X : exact s) by (apply live_exact2; [apply PH; discriminate|exact O]).
    destruct (finalize f) as [g|] eqn:FI.
    + apply apply_update_inv; auto.
      * apply exact_changed; [exact X|now rewrite A].
      * intros more cl L. rewrite A. cbn [cont]. unfold ForSpec.exhausted. now rewrite FI.
    + apply goto_exact; try (now rewrite A); try discriminate; auto. rewrite A. intros more cl L.
      cbn [cont]. unfold ForSpec.exhausted. now rewrite FI.
  - (* Succeeding *)
    specialize (PH ltac:(discriminate) ltac:(discriminate)).
    assert (MM : m = Returns \/ m = Yields) by (destruct m; auto). destruct MM as [M|M]; rewrite M at 1.
    + destruct (result_last value type type_of last initial l0 names fresh (vars s) (i_sigs _ H)) as (v & LV & RV).
      rewrite LV. unfold try_write. destruct (expired s) eqn:EX.
      { unfold goto. apply move_inv; [exact H|exact (i_sigs _ H)|exact (i_pos _ H)|]. now right; left. }
      destruct (out_status s) eqn:OS.
      { unfold goto. apply move_inv; [exact H|exact (i_sigs _ H)|exact (i_pos _ H)|].
        left. apply (i_status _ H). congruence. }
      unfold goto; cbn. rewrite ?OS, ?EX. apply (write_out s); auto.
      { exact (i_sigs _ H). }
      destruct PH as [X|[D _]].
      * left. split; cbn [log in_closed position at_ vars changed written]; [|congruence].
        intros more c L. rewrite (proj1 X more c L), A. cbn [cont]. unfold ForSpec.finished. rewrite M, RV.
        unfold then_; cbn. now rewrite app_nil_r.
      * right. assert (F : flag s = true) by (unfold orphaned in D; rewrite EX, orb_false_r in D; exact D).
        split; [split; [unfold orphaned; cbn; now rewrite F|cbn; auto]|].
        intros [C|C]; [congruence|]. destruct (i_flag _ H F) as [Q|[Q|Q]]; [congruence|congruence|].
        destruct (cancelling s) as [e|] eqn:CA; [|congruence]. destruct (i_cancel _ H e CA) as (_ & Q2 & _). congruence.
    + apply close_out; auto. intros F EX. left.
      assert (X : exact s) by (apply live_exact2; [exact PH|unfold orphaned; now rewrite F, EX]).
      apply exact_ends; [exact X|]. intros rest c. rewrite A. cbn [cont]. unfold ForSpec.finished, result. now rewrite M.
  - (* Closing *)
    specialize (PH ltac:(discriminate) ltac:(discriminate)).
    apply close_out; auto. intros F EX. left.
    assert (X : exact s) by (apply live_exact2; [exact PH|unfold orphaned; now rewrite F, EX]).
    apply exact_ends; [exact X|]. intros rest c. now rewrite A.
  - (* Failing *)
    assert (X : exact s) by (apply live_exact; [apply PH; discriminate|now rewrite A..]).
    apply close_out; auto. intros F EX. left.
    apply exact_ends; [exact X|]. intros rest c. now rewrite A.
  - (* Subscribing *)
    assert (X : exact s) by (apply live_exact; [apply PH; discriminate|now rewrite A..]).
    destruct (interrupted s) eqn:I; [now apply goto_leaving|].
    destruct w; (apply goto_exact; try (now rewrite A); try discriminate; auto).
  - exact H.
  - (* Leaving *)
    pose proof (i_phase _ H) as P. unfold phase in P. rewrite A in P.
    apply close_out; auto. intros F EX. right. split; [reflexivity|]. destruct P as [P|[P|P]]; [congruence|congruence|exact P].
  - exact H.
Qed.

Lemma notify_inv s : inv s -> inv (step s Notify).
Proof.
  intros H. cbn [ForModel.step]. destruct (at_ s) as [w| | |v|fin| | | |e|w|w| |] eqn:A; try exact H.
  destruct (ready w s); [|exact H]. destruct (interrupted s) eqn:I; [now apply goto_leaving|].
  assert (X : exact s) by (apply live_exact; [apply (phase_at s H); now rewrite A|now rewrite A..]).
  destruct w; (apply goto_exact; try (now rewrite A); try discriminate; auto).
Qed.
Lemma step_inv s o : inv s -> inv (step s o).
Proof.
  destruct o; [apply routine_inv|apply notify_inv|apply write_inv|apply close_inv|apply expire_inv|apply cancel_inv
              |apply call_inv|apply close_cancelled_inv|apply shutdown_inv].
Qed.
Lemma run_inv ops : forall s, inv s -> inv (run type_of type_eqb m f initial s ops).
Proof. induction ops as [|o ops IH]; intros s H; [exact H|]. apply IH. now apply step_inv. Qed.

(** What the routine leaves alone *)
Definition outside (s : state) := (log s, in_closed s, expired s, cancelled s, shut s).
Lemma apply_update_outside r final s : outside (apply_update type_of type_eqb m r final s) = outside s.
Proof. unfold apply_update. destruct (update _ _ _ _); [|reflexivity]. now destruct m. Qed.
Lemma with_condition_outside c s : outside (with_condition c s) = outside s.
Proof. now destruct c. Qed.
Lemma try_close_outside st s : outside (try_close st s) = outside s.
Proof. unfold try_close. now destruct (flag s). Qed.
Lemma goto_outside p s : outside (goto p s) = outside s.
Proof. reflexivity. Qed.
Lemma try_write_outside v s : outside (snd (try_write v s)) = outside s.
Proof. unfold try_write. destruct (expired s) eqn:X; [reflexivity|]. destruct (out_status s); [reflexivity|]. cbn. unfold outside; cbn. congruence. Qed.
Lemma routine_outside now s : outside (routine_step now s) = outside s.
Proof.
  unfold ForModel.routine_step. destruct (at_ s) as [[]| | |v|fin| | | |e|w|w| |]; try reflexivity.
  - destruct (loop_condition f); [apply with_condition_outside|reflexivity].
  - destruct (orphaned s); [reflexivity|]. destruct (loop_condition f); [|reflexivity].
    destruct now; [apply with_condition_outside|reflexivity].
  - destruct (nth_error _ _); [reflexivity|]. now destruct (in_closed s) as [[]|] eqn:IC.
  - destruct (orphaned s); [reflexivity|]. apply apply_update_outside.
  - destruct (changed s); [|reflexivity]. destruct (last_value _) as [v|]; [|reflexivity].
    pose proof (try_write_outside v s) as T. destruct (try_write v s) as [[] s']; cbn [snd] in T; exact T.
  - destruct (orphaned s); [reflexivity|]. destruct (finalize f); [|reflexivity]. apply apply_update_outside.
  - destruct m.
    + destruct (last_value _) as [v|]; [|reflexivity].
      pose proof (try_write_outside v s) as T. destruct (try_write v s) as [[] s']; cbn [snd] in T; exact T.
    + rewrite goto_outside. apply try_close_outside.
  - rewrite goto_outside. apply try_close_outside.
  - rewrite goto_outside. apply try_close_outside.
  - now destruct (interrupted s).
  - rewrite goto_outside. apply try_close_outside.
Qed.

Lemma step_input s o : (log (step s o), in_closed (step s o)) = put_in (log s, in_closed s) o.
Proof.
  destruct o; unfold put_in; cbn [fst snd].
  - pose proof (routine_outside now s) as H. unfold outside in H. cbn [ForModel.step].
    injection H as H1 H2 _ _ _. rewrite H1, H2. now destruct (in_closed s).
  - cbn [ForModel.step]. destruct (at_ s); try (now destruct (in_closed s)). destruct (ready w s), (interrupted s); cbn [goto log in_closed]; destruct (in_closed s) eqn:IC; try rewrite IC; reflexivity.
  - cbn [ForModel.step]. destruct (in_closed s) eqn:IC; [now rewrite IC|reflexivity].
  - cbn [ForModel.step]. destruct (in_closed s) eqn:IC; [now rewrite IC|reflexivity].
  - cbn. now destruct (in_closed s).
  - cbn. destruct (cancelled s); now destruct (in_closed s).
  - cbn. destruct (cancelled s), (notified s), (at_ s); now destruct (in_closed s).
  - cbn. destruct (cancelling s); now destruct (in_closed s).
  - cbn. destruct (at_ s); now destruct (in_closed s).
Qed.
Lemma run_input ops : forall s, (log (run type_of type_eqb m f initial s ops), in_closed (run type_of type_eqb m f initial s ops))
  = fold_left put_in ops (log s, in_closed s).
Proof. induction ops as [|o ops IH]; intros s; [reflexivity|]. cbn [fold_left]. rewrite <- step_input. apply IH. Qed.

(** Where cancellation, shutdown and the loss of the output come from *)
Lemma step_flags s o :
  (expired (step s o) = true -> expired s = true \/ o = Expire) /\
  (forall e, cancelled (step s o) = Some e -> cancelled s = Some e \/ o = Cancel e) /\
  (shut (step s o) = true -> shut s = true \/ o = Shutdown).
Proof.
  destruct o; cbn [ForModel.step].
  - pose proof (routine_outside now s) as H. unfold outside in H. injection H as _ _ H1 H2 H3.
    rewrite H1, H2, H3. auto.
  - destruct (at_ s); auto. destruct (ready w s), (interrupted s); auto.
  - destruct (in_closed s); auto.
  - destruct (in_closed s); auto.
  - cbn; auto.
  - destruct (cancelled s) eqn:C; [rewrite C; auto|]. cbn. repeat split; auto. intros e1 [= ->]. auto.
  - destruct (cancelled s) eqn:C; [|rewrite C; auto]. destruct (notified s), (at_ s); cbn; rewrite ?C; auto.
  - destruct (cancelling s); auto.
  - destruct (at_ s); cbn; auto.
Qed.
Lemma run_flags ops : forall s,
  (expired (run type_of type_eqb m f initial s ops) = true -> expired s = true \/ In Expire ops) /\
  (forall e, cancelled (run type_of type_eqb m f initial s ops) = Some e -> cancelled s = Some e \/ In (Cancel e) ops) /\
  (shut (run type_of type_eqb m f initial s ops) = true -> shut s = true \/ In Shutdown ops).
Proof.
  induction ops as [|o ops IH]; intros s; [cbn; auto|].
  destruct (IH (step s o)) as (A & B & C). destruct (step_flags s o) as (A1 & B1 & C1). cbn [In].
  change (run type_of type_eqb m f initial s (o :: ops)) with (run type_of type_eqb m f initial (step s o) ops).
  split; [|split].
  - intros H. destruct (A H) as [X|X]; [destruct (A1 X) as [Y|Y]|]; auto.
  - intros e H. destruct (B e H) as [X|X]; [destruct (B1 e X) as [Y|Y]|]; auto.
  - intros H. destruct (C H) as [X|X]; [destruct (C1 X) as [Y|Y]|]; auto.
Qed.

Lemma started s0 ops (s := run type_of type_eqb m f initial s0 ops) : start m last initial l0 = Some s0 ->
  inv s /\ (log s, in_closed s) = input ops /\
  (expired s = true -> In Expire ops) /\ (forall e, cancelled s = Some e -> In (Cancel e) ops) /\ (shut s = true -> In Shutdown ops).
Proof.
  intros H. split; [apply run_inv; now apply start_inv|].
  assert (K : log s0 = [] /\ in_closed s0 = None /\ expired s0 = false /\ cancelled s0 = None /\ shut s0 = false).
  { unfold start in H. destruct (existsb _ _); [discriminate|]. injection H as <-. now repeat split. }
  destruct K as (K1 & K2 & K3 & K4 & K5). split; [unfold s, input; rewrite run_input; now rewrite K1, K2|].
  destruct (run_flags ops s0) as (A & B & C). fold s in A, B, C. rewrite K3 in A. rewrite K4 in B. rewrite K5 in C.
  split; [|split].
  - intros X. destruct (A X); [discriminate|assumption].
  - intros e X. destruct (B e X); [discriminate|assumption].
  - intros X. destruct (C X); [discriminate|assumption].
Qed.
Lemma at_present s P : in_future s P -> P (looped (log s) (in_closed s)).
Proof. intros H. rewrite <- (app_nil_r (log s)). apply H. now right. Qed.

Section Top.
Variables (s0 : state) (ops : list (op value E)).
Hypothesis begun : start m last initial l0 = Some s0.
Let s := run type_of type_eqb m f initial s0 ops.
Let due := looped (fst (input ops)) (snd (input ops)).
Lemma due_eq : due = looped (log s) (in_closed s).
Proof. destruct (started s0 ops begun) as (_ & I & _). unfold due. rewrite <- I. reflexivity. Qed.

Lemma top_prefix : m = Yields \/ (forall e, ~ In (Cancel e) ops) -> prefix (written s) (fst due).
Proof.
  intros H. rewrite due_eq. destruct (started s0 ops begun) as (V & _ & _ & C & _). fold s in V, C.
  apply (at_present s (fun t => prefix (written s) (fst t))). apply (i_prefix _ V).
  destruct H as [H|H]; [now left|right]. destruct (cancelled s) as [e|]; [|reflexivity]. now destruct (H e (C e eq_refl)).
Qed.
Lemma top_success : out_status s = Some OK -> due = (written s, Ends OK).
Proof.
  intros H. rewrite due_eq. destruct (started s0 ops begun) as (V & _). fold s in V.
  apply (at_present s (fun t => t = (written s, Ends OK))). now apply (i_ok _ V).
Qed.
Lemma top_error e : out_status s = Some (Err e) ->
  due = (written s, Ends (Err e)) \/ (exists c, In (Cancel c) ops /\ (e = Cancelled c \/ e = Orphaned)) \/
  (In Shutdown ops /\ e = Orphaned).
Proof.
  intros H. rewrite due_eq. destruct (started s0 ops begun) as (V & _ & _ & C & SH). fold s in V, C, SH.
  destruct (i_err _ V e H) as [X|[(c & X & ->)|[-> [X|X]]]].
  - left. exact (at_present s (fun t => t = (written s, Ends (Err e))) X).
  - right; left. exists c. auto.
  - right; left. destruct (cancelled s) as [c|]; [|congruence]. exists c. auto.
  - right; right. auto.
Qed.
Lemma top_complete : ~ In Expire ops -> (forall e, ~ In (Cancel e) ops) -> ~ In Shutdown ops ->
  at_ s = Gone \/ (at_ s = Waiting On_input /\ ready On_input s = false) ->
  due = (written s, match out_status s with None => Going | Some st => Ends st end).
Proof.
  intros NX NC NS Q. destruct (started s0 ops begun) as (V & _ & X & C & SH). fold s in V, X, C, SH.
  assert (C0 : cancelled s = None) by (destruct (cancelled s) as [e|]; [now destruct (NC e (C e eq_refl))|reflexivity]).
  assert (X0 : expired s = false) by (destruct (expired s); [now destruct (NX (X eq_refl))|reflexivity]).
  assert (K0 : cancelling s = None).
  { destruct (cancelling s) as [e|] eqn:K; [|reflexivity]. destruct (i_cancel _ V e K) as (_ & ? & _). congruence. }
  destruct Q as [Q|[Q R]].
  - pose proof (i_phase _ V) as P. unfold phase in P. rewrite Q in P.
    destruct (i_flag _ V P) as [O|[O|O]]; [|congruence|congruence].
    destruct (out_status s) as [[|e]|] eqn:OS; [now apply top_success| |congruence].
    destruct (top_error e OS) as [T|[(c & T & _)|[T _]]]; [exact T|now destruct (NC c)|contradiction].
  - assert (EX : exact s) by (apply live_exact; [apply (phase_at s V); now rewrite Q|now rewrite Q..]).
    assert (NE : nth_error (log s) (position s) = None /\ in_closed s = None).
    { unfold ready in R. destruct (nth_error _ _); [discriminate|]. now destruct (in_closed s). }
    destruct NE as [NE IC].
    assert (O : out_status s = None).
    { destruct (out_status s) as [[|e]|] eqn:OS; [| |reflexivity]; exfalso.
      - pose proof (top_success OS) as D. rewrite due_eq in D.
        pose proof (proj1 EX [] (in_closed s) (or_intror (conj eq_refl eq_refl))) as D2. rewrite app_nil_r in D2. rewrite D2, Q, IC in D.
        rewrite (skipn_all2 (log s)) in D by (now apply nth_error_None). discriminate D.
      - destruct (top_error e OS) as [D|[(c & T & _)|[T _]]]; [|now destruct (NC c)|contradiction]. rewrite due_eq in D.
        pose proof (proj1 EX [] (in_closed s) (or_intror (conj eq_refl eq_refl))) as D2. rewrite app_nil_r in D2. rewrite D2, Q, IC in D.
        rewrite (skipn_all2 (log s)) in D by (now apply nth_error_None). discriminate D. }
    rewrite O, due_eq. rewrite <- (app_nil_r (log s)), (proj1 EX [] (in_closed s) (or_intror (conj eq_refl eq_refl))), Q, IC.
    rewrite (skipn_all2 (log s)) by (now apply nth_error_None). unfold then_; cbn. now rewrite app_nil_r.
Qed.
End Top.
End Run.
