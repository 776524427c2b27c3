(** Chunk independence of the JSON stream processors (lemmas for C35). *)
From Coq Require Import NArith ZArith List Bool Lia.
From Verif Require Import JsonModel JsonSpec.
Import ListNotations.
Open Scope N_scope.

(** What a run of [process] shows: the concatenated output and the end flag. *)
Definition text {S} (r : result S) : bytes := concat (r_chunks r).

(** Processing [a ++ b] in one call or in two makes no difference. *)
Definition splits (p : processor) : Prop := forall st a b e,
  let r1 := process p st a false in
  let r := process p st (a ++ b) e in
  if r_end r1 then text r = text r1 /\ r_end r = true
  else let r2 := process p (r_state r1) b e in
       text r = text r1 ++ text r2 /\ r_end r = r_end r2 /\
       (r_end r = false -> r_state r = r_state r2).

Definition ends (p : processor) : Prop := forall st a, r_end (process p st a true) = true.
Definition no_empty (p : processor) : Prop := forall st a e, ~ In [] (r_chunks (process p st a e)).

Lemma single_text {S} (st : S) o e : text (single st o e) = o.
Proof. unfold text, single. destruct o; simpl; auto. now rewrite app_nil_r. Qed.
Lemma single_end {S} (st : S) o e : r_end (single st o e) = e.
Proof. reflexivity. Qed.
Lemma single_state {S} (st : S) o e : r_state (single st o e) = st.
Proof. reflexivity. Qed.
Lemma single_no_empty {S} (st : S) o e : ~ In [] (r_chunks (single st o e)).
Proof. destruct o; simpl; auto. intros [H | []]. discriminate. Qed.

Lemma loop_app {S} (step : S -> byte -> S * bytes) : forall a b st,
  loop step st (a ++ b) =
  (fst (loop step (fst (loop step st a)) b),
   snd (loop step st a) ++ snd (loop step (fst (loop step st a)) b)).
Proof.
  induction a as [|c a IH]; intros b st; cbn [app loop].
  - cbn [fst snd app]. destruct (loop step st b); reflexivity.
  - destruct (step st c) as [st1 o1]. rewrite IH.
    destruct (loop step st1 a) as [st2 o2]. cbn [fst snd].
    destruct (loop step st2 b) as [st3 o3]. cbn [fst snd]. now rewrite app_assoc.
Qed.

Lemma loop_proc_splits {S} (i : S) step : splits (loop_proc i step).
Proof.
  intros st a b e. unfold loop_proc; cbn [process].
  rewrite loop_app. destruct (loop step st a) as [s1 o1] eqn:E1. cbn [fst snd].
  rewrite single_end, single_state.
  destruct (loop step s1 b) as [s2 o2]. cbn [fst snd].
  rewrite !single_text, !single_end, !single_state. auto.
Qed.
Lemma loop_proc_ends {S} (i : S) step : ends (loop_proc i step).
Proof. intros st a. unfold loop_proc; cbn [process]. destruct (loop step st a). reflexivity. Qed.
Lemma loop_proc_no_empty {S} (i : S) step : no_empty (loop_proc i step).
Proof.
  intros st a e. unfold loop_proc; cbn [process]. destruct (loop step st a). apply single_no_empty.
Qed.

Lemma pretty_splits i : splits (pretty_proc i).
Proof. exact (loop_proc_splits _ (pretty_step i)). Qed.

Lemma compact_splits : splits compact_proc.
Proof.
  intros st a b e. cbn [process compact_proc]. unfold comp_process.
  rewrite loop_app. destruct (loop comp_step st a) as [s1 o1] eqn:E1. cbn [fst snd andb].
  rewrite single_end, single_state.
  destruct (loop comp_step s1 b) as [s2 o2]. cbn [fst snd].
  rewrite !single_text, !single_end, !single_state. repeat split; auto.
  destruct (e && k_in_value s2); auto. now rewrite app_assoc.
Qed.

Lemma head_loop_app n : forall a b l,
  head_loop n l (a ++ b) =
  let '(l1, o1, e1) := head_loop n l a in
  if e1 then (l1, o1, true)
  else let '(l2, o2, e2) := head_loop n l1 b in (l2, o1 ++ o2, e2).
Proof.
  induction a as [|c a IH]; intros b l; cbn [app head_loop].
  - destruct (head_loop n l b) as [[? ?] ?]. reflexivity.
  - destruct (c =? cNewline).
    + destruct (n <=? l + 1)%Z; [reflexivity|]. rewrite IH.
      destruct (head_loop n (l + 1) a) as [[l1 o1] [|]]; [reflexivity|].
      destruct (head_loop n l1 b) as [[? ?] ?]. reflexivity.
    + rewrite IH. destruct (head_loop n l a) as [[l1 o1] [|]]; [reflexivity|].
      destruct (head_loop n l1 b) as [[? ?] ?]. reflexivity.
Qed.

Lemma head_loop_below n : forall a l l1 o1,
  (l < n)%Z -> head_loop n l a = (l1, o1, false) -> (l1 < n)%Z.
Proof.
  induction a as [|c a IH]; cbn [head_loop]; intros l l1 o1 H E.
  - congruence.
  - destruct (c =? cNewline).
    + destruct (n <=? l + 1)%Z eqn:E2; [discriminate|].
      destruct (head_loop n (l + 1) a) as [[l2 o2] e2] eqn:E3.
      apply pair_equal_spec in E; destruct E as [E ->]. apply pair_equal_spec in E; destruct E as [-> <-].
      refine (IH _ _ _ _ E3). lia.
    + destruct (head_loop n l a) as [[l2 o2] e2] eqn:E3.
      apply pair_equal_spec in E; destruct E as [E ->]. apply pair_equal_spec in E; destruct E as [-> <-].
      apply (IH _ _ _ H E3).
Qed.

Lemma head_splits n : splits (head_proc n).
Proof.
  intros st a b e. cbn [process head_proc]. unfold head_process.
  destruct (n <=? st)%Z eqn:En.
  - rewrite single_end, !single_text. auto.
  - rewrite head_loop_app.
    destruct (head_loop n st a) as [[l1 o1] [|]] eqn:E1.
    + rewrite !single_end, !single_text. auto.
    + rewrite single_end, single_state.
      pose proof (head_loop_below n a st l1 o1 ltac:(lia) E1) as Hb.
      destruct (n <=? l1)%Z eqn:E2; [lia|].
      destruct (head_loop n l1 b) as [[l2 o2] [|]];
        rewrite !single_text, !single_end, ?single_state; auto.
Qed.

Lemma impl_step_opened s c : i_opened (fst (impl_step s c)) = i_opened s.
Proof. unfold impl_step. destruct (c =? cNewline); [reflexivity|]. destruct (i_comma s); reflexivity. Qed.
Lemma impl_loop_opened : forall a s, i_opened (fst (loop impl_step s a)) = i_opened s.
Proof.
  induction a as [|c a IH]; intros s; cbn [loop]; [reflexivity|].
  pose proof (impl_step_opened s c) as H.
  destruct (impl_step s c) as [s1 o1]. specialize (IH s1).
  destruct (loop impl_step s1 a) as [s2 o2]. cbn [fst] in *. congruence.
Qed.

Lemma implode_splits : splits implode_proc.
Proof.
  intros st a b e. cbn [process implode_proc]. unfold impl_process.
  rewrite loop_app.
  pose proof (impl_loop_opened a (mkImpl true (i_comma st))) as Ho.
  destruct (loop impl_step (mkImpl true (i_comma st)) a) as [s1 o1] eqn:E1. cbn [fst snd] in *.
  rewrite single_end, single_state, Ho.
  assert (Hs : mkImpl true (i_comma s1) = s1) by (destruct s1; cbn in Ho; subst; reflexivity).
  rewrite Hs. destruct (loop impl_step s1 b) as [s2 o2]. cbn [fst snd].
  rewrite !single_text, !single_end, !single_state. repeat split; auto.
  cbn [app]. rewrite ?app_nil_r, <- ?app_assoc. reflexivity.
Qed.

Lemma quote_loop_state : forall a (s : bool), fst (loop (fun st c => (st, quote_char c)) s a) = s.
Proof.
  induction a as [|c a IH]; intros s; cbn [loop]; [reflexivity|].
  specialize (IH s). destruct (loop _ s a) as [s1 o1]. exact IH.
Qed.

Lemma quote_splits : splits quote_proc.
Proof.
  intros st a b e. cbn [process quote_proc]. unfold quote_process.
  rewrite loop_app. rewrite !quote_loop_state.
  pose proof (quote_loop_state a true) as Ho.
  destruct (loop (fun st c => (st, quote_char c)) true a) as [s1 o1] eqn:E1. cbn [fst snd] in *. subst s1.
  rewrite single_end, single_state.
  pose proof (quote_loop_state b true) as Ho2.
  destruct (loop (fun st c => (st, quote_char c)) true b) as [s2 o2]. cbn [fst snd] in *. subst s2.
  rewrite !single_text, !single_end, !single_state. repeat split; auto.
  cbn [app]. rewrite ?app_nil_r, <- ?app_assoc. reflexivity.
Qed.

Lemma chunk_loop_app : forall a b buf,
  chunk_loop buf (a ++ b) =
  (fst (chunk_loop (fst (chunk_loop buf a)) b),
   snd (chunk_loop buf a) ++ snd (chunk_loop (fst (chunk_loop buf a)) b)).
Proof.
  induction a as [|c a IH]; intros b buf; cbn [app chunk_loop].
  - cbn [fst snd app]. destruct (chunk_loop buf b); reflexivity.
  - destruct (c =? cNewline).
    + rewrite IH. destruct (chunk_loop [] a) as [b1 l1]. reflexivity.
    + apply IH.
Qed.

Lemma chunk_process_eq st a e :
  chunk_process st a e =
  let r := comp_process (fst st) a e in
  mkResult (r_state r, fst (chunk_loop (snd st) (text r))) (snd (chunk_loop (snd st) (text r))) (r_end r).
Proof. destruct st. unfold chunk_process, text. cbv zeta. cbn [fst snd]. destruct (chunk_loop _ _). reflexivity. Qed.

(** The chunks themselves, not only their concatenation, do not depend on how
    the input is cut. *)
Lemma chunk_process_splits : forall (k : comp_st) (buf : bytes) a b e,
  let r1 := chunk_process (k, buf) a false in
  let r2 := chunk_process (r_state r1) b e in
  let r := chunk_process (k, buf) (a ++ b) e in
  r_end r1 = false /\ r_chunks r = r_chunks r1 ++ r_chunks r2 /\
  r_end r = r_end r2 /\ (r_end r = false -> r_state r = r_state r2).
Proof.
  intros k buf a b e. cbv zeta.
  pose proof (compact_splits k a b e) as H. cbv zeta in H.
  change (process compact_proc) with comp_process in H. change (St compact_proc) with comp_st in H.
  assert (He : r_end (comp_process k a false) = false).
  { unfold comp_process. destruct (loop comp_step k a). reflexivity. }
  rewrite He in H. destruct H as (Ht & Hend & Hst).
  rewrite !chunk_process_eq. cbv zeta. cbn [fst snd r_end r_state r_chunks].
  rewrite He. rewrite Ht, chunk_loop_app. cbn [fst snd].
  split; [reflexivity|]. split; [reflexivity|]. split; [exact Hend|].
  intros H0. rewrite Hst by assumption. reflexivity.
Qed.

Lemma chunk_values_splits_strong : forall st a b e,
  let r1 := process chunk_values_proc st a false in
  let r2 := process chunk_values_proc (r_state r1) b e in
  let r := process chunk_values_proc st (a ++ b) e in
  r_end r1 = false /\ r_chunks r = r_chunks r1 ++ r_chunks r2 /\
  r_end r = r_end r2 /\ (r_end r = false -> r_state r = r_state r2).
Proof. intros [k buf] a b e. exact (chunk_process_splits k buf a b e). Qed.

Lemma chunk_values_splits : splits chunk_values_proc.
Proof.
  intros st a b e.
  pose proof (chunk_values_splits_strong st a b e) as (H0 & H1 & H2 & H3). cbv zeta.
  rewrite H0. unfold text. rewrite H1, concat_app. auto.
Qed.

(** ** Composition *)
Lemma feed_text p : splits p -> forall l st,
  (forall c, In c l -> c <> []) -> l <> [] ->
  text (feed p st l) = text (process p st (concat l) false) /\
  r_end (feed p st l) = r_end (process p st (concat l) false) /\
  (r_end (feed p st l) = false -> r_state (feed p st l) = r_state (process p st (concat l) false)).
Proof.
  intros Hs. induction l as [|c l IH]; intros st Hne Hnil; [congruence|].
  cbn [feed concat].
  pose proof (Hs st c (concat l) false) as H. cbv zeta in H.
  destruct (r_end (process p st c false)) eqn:E1.
  - destruct H as [Ht He]. rewrite Ht, He, ?E1. split; [auto|split;[auto|congruence]].
  - destruct H as (Ht & He & Hst).
    destruct l as [|c2 l].
    + cbn [feed r_chunks r_end r_state concat] in *. rewrite ?app_nil_r in *.
      split; [|split].
      * unfold text at 1. cbn [r_chunks]. rewrite ?app_nil_r. reflexivity.
      * cbn [r_end]. congruence.
      * reflexivity.
    + destruct (IH (r_state (process p st c false))) as (I1 & I2 & I3).
      { intros; apply Hne; now right. }
      { discriminate. }
      cbn [r_chunks r_end r_state].
      split; [|split].
      * unfold text at 1. cbn [r_chunks]. rewrite concat_app. fold (text (feed p (r_state (process p st c false)) (c2 :: l))).
        rewrite Ht, I1. reflexivity.
      * rewrite He. exact I2.
      * intros H0. rewrite Hst by (rewrite He, <- I2; exact H0). apply I3. exact H0.
Qed.

(** [stage] depends only on the concatenation of its non-empty chunks. *)
Definition oneshot (p : processor) (st : St p) (t : bytes) (e : bool) : bytes * bool :=
  match t, e with
  | [], false => ([], false)
  | _, _ => (text (process p st t e), r_end (process p st t e))
  end.
Definition next_state (p : processor) (st : St p) (t : bytes) : St p :=
  match t with [] => st | _ => r_state (process p st t false) end.

Lemma concat_nil_iff (l : list bytes) : (forall c, In c l -> c <> []) -> concat l = [] -> l = [].
Proof.
  destruct l as [|c l]; auto. intros H E. cbn in E. apply app_eq_nil in E. destruct E as [-> _].
  exfalso. apply (H []); [now left|reflexivity].
Qed.

Lemma stage_text p : splits p -> ends p -> forall l st e,
  (forall c, In c l -> c <> []) ->
  (text (stage p st l e), r_end (stage p st l e)) = oneshot p st (concat l) e /\
  (r_end (stage p st l e) = false -> r_state (stage p st l e) = next_state p st (concat l)).
Proof.
  intros Hs Hen l st e Hne. unfold stage. cbv zeta.
  destruct l as [|c l].
  - cbn [feed r_end concat]. rewrite andb_comm. cbn [negb andb].
    destruct e; cbn [r_end r_state r_chunks].
    + unfold text at 1. cbn [r_chunks app oneshot]. split; [|discriminate].
      f_equal. symmetry. apply Hen.
    + split; reflexivity.
  - assert (Hc : concat (c :: l) <> []).
    { intros E. apply concat_nil_iff in E; [discriminate|assumption]. }
    destruct (feed_text p Hs (c :: l) st Hne ltac:(discriminate)) as (F1 & F2 & F3).
    assert (Ho : forall e', oneshot p st (concat (c :: l)) e' =
       (text (process p st (concat (c :: l)) e'), r_end (process p st (concat (c :: l)) e'))).
    { intros e'. unfold oneshot. destruct (concat (c :: l)); [congruence|]. reflexivity. }
    assert (Hn : next_state p st (concat (c :: l)) = r_state (process p st (concat (c :: l)) false)).
    { unfold next_state. destruct (concat (c :: l)); [congruence|]. reflexivity. }
    rewrite Ho, Hn.
    pose proof (Hs st (concat (c :: l)) [] e) as H. cbv zeta in H. rewrite app_nil_r in H.
    destruct (r_end (feed p st (c :: l))) eqn:Ef.
    + rewrite andb_comm. cbn [negb andb]. rewrite <- F2 in H. destruct H as [H1 H2].
      rewrite Ef, F1, H1, H2. split; [reflexivity|discriminate].
    + rewrite <- F2 in H. destruct H as (H1 & H2 & H3). cbn [negb]. rewrite andb_true_r.
      rewrite <- (F3 eq_refl) in *.
      destruct e; cbn [r_end r_state].
      * unfold text at 1. cbn [r_chunks]. rewrite concat_app. fold (text (feed p st (c :: l))).
        fold (text (process p (r_state (feed p st (c :: l))) [] true)).
        rewrite F1, <- H1. split; [|discriminate]. f_equal. symmetry. apply Hen.
      * rewrite Ef. split.
        -- rewrite F1. f_equal. exact F2.
        -- reflexivity.
Qed.

Lemma feed_no_empty p : no_empty p -> forall l st, ~ In [] (r_chunks (feed p st l)).
Proof.
  intros Hn. induction l as [|c l IH]; intros st; cbn [feed]; [auto|].
  destruct (r_end (process p st c false)); [apply Hn|]. cbn [r_chunks].
  rewrite in_app_iff. intros [H|H]; [exact (Hn _ _ _ H)|exact (IH _ H)].
Qed.
Lemma stage_no_empty p : no_empty p -> forall l st e, ~ In [] (r_chunks (stage p st l e)).
Proof.
  intros Hn l st e. unfold stage. destruct (e && _); [|now apply feed_no_empty].
  cbn [r_chunks]. rewrite in_app_iff. intros [H|H]; [exact (feed_no_empty p Hn _ _ H)|exact (Hn _ _ _ H)].
Qed.

Definition good (p : processor) : Prop := splits p /\ ends p /\ no_empty p.

(** Pure description of the composite: text in, text and end flag out. *)
Fixpoint pure (ps : list processor) : states ps -> bytes -> bool -> bytes * bool :=
  match ps with
  | [] => fun _ t e => (t, e)
  | p :: ps' => fun st t e => let r := oneshot p (fst st) t e in pure ps' (snd st) (fst r) (snd r)
  end.
Fixpoint pure_next (ps : list processor) : states ps -> bytes -> states ps :=
  match ps with
  | [] => fun _ _ => tt
  | p :: ps' => fun st t =>
      (next_state p (fst st) t, pure_next ps' (snd st) (fst (oneshot p (fst st) t false)))
  end.

Lemma no_in_nil (l : list bytes) : ~ In [] l -> forall c, In c l -> c <> [].
Proof. intros H c Hc ->. auto. Qed.

Lemma pure_end ps : Forall good ps -> forall st t, snd (pure ps st t true) = true.
Proof.
  induction ps as [|p ps IH]; intros Hg st t; [reflexivity|].
  inversion Hg as [|? ? (Hs & He & Hn) Hg']; subst. cbn [pure]. cbv zeta.
  assert (E : snd (oneshot p (fst st) t true) = true) by (unfold oneshot; destruct t; apply He).
  rewrite E. apply IH. assumption.
Qed.

Lemma stages_pure ps : Forall good ps -> forall st l e,
  (forall c, In c l -> c <> []) ->
  (text (stages ps st l e), r_end (stages ps st l e)) = pure ps st (concat l) e /\
  (r_end (stages ps st l e) = false -> r_state (stages ps st l e) = pure_next ps st (concat l)).
Proof.
  induction ps as [|p ps IH]; intros Hg st l e Hl.
  - cbn. destruct st. auto.
  - inversion Hg as [|? ? (Hs & He & Hn) Hg']; subst. cbn [stages pure pure_next]. cbv zeta.
    destruct (stage_text p Hs He l (fst st) e Hl) as [H1 H2].
    rewrite <- H1. cbn [fst snd].
    set (r := stage p (fst st) l e) in *.
    destruct (IH Hg' (snd st) (r_chunks r) (r_end r)) as [I1 I2].
    { apply no_in_nil. apply stage_no_empty. assumption. }
    split.
    + exact I1.
    + cbn [r_end r_state]. intros H0.
      assert (Er : r_end r = false).
      { destruct (r_end r) eqn:Er; [|reflexivity].
        pose proof (pure_end ps Hg' (snd st) (concat (r_chunks r))) as Hp.
        rewrite <- I1 in Hp. cbn [snd] in Hp. congruence. }
      rewrite I2 by exact H0. rewrite (H2 Er). f_equal. f_equal.
      assert (Ee : e = false).
      { destruct e; [|reflexivity].
        assert (E : snd (oneshot p (fst st) (concat l) true) = true)
          by (unfold oneshot; destruct (concat l); apply He).
        rewrite <- H1 in E. cbn [snd] in E. congruence. }
      subst e. rewrite <- H1. reflexivity.
Qed.

(** ** Runs *)
Lemma run_from_one p : splits p -> ends p -> forall items st,
  concat (run_from p st items) = text (process p st (given items) true).
Proof.
  intros Hs He. induction items as [|[c|] items IH]; intros st; cbn [run_from given map concat].
  - reflexivity.
  - fold (given items). pose proof (Hs st c (given items) true) as H. cbv zeta in H.
    destruct (r_end (process p st c false)) eqn:E1.
    + destruct H as [H _]. symmetry. exact H.
    + destruct H as [H _]. rewrite concat_app, IH, H. reflexivity.
  - fold (given items). cbn [app]. apply IH.
Qed.

(** For a composite the first stage sees the raw chunk, possibly empty. *)
Lemma stages_raw ps p : Forall good (p :: ps) -> forall (s : St p) (ss : states ps) c e,
  let st' := (s, ss) : states (p :: ps) in
  (text (stages (p :: ps) st' [c] e), r_end (stages (p :: ps) st' [c] e)) =
    (let r := process p s c e in pure ps ss (text r) (r_end r)) /\
  (r_end (stages (p :: ps) st' [c] e) = false ->
   r_state (stages (p :: ps) st' [c] e) =
   (r_state (process p s c false), pure_next ps ss (text (process p s c false)))).
Proof.
  intros Hg s ss c e st'. inversion Hg as [|? ? (Hs & He & Hn) Hg']; subst.
  unfold st'. cbn [stages]. cbv zeta. cbn [fst snd].
  assert (S1 : text (stage p s [c] e) = text (process p s c e) /\
               r_end (stage p s [c] e) = r_end (process p s c e) /\
               (r_end (stage p s [c] e) = false ->
                r_state (stage p s [c] e) = r_state (process p s c false) /\
                text (stage p s [c] e) = text (process p s c false))).
  { unfold stage. cbv zeta. cbn [feed].
    pose proof (Hs s c [] e) as H. cbv zeta in H. rewrite app_nil_r in H.
    destruct (r_end (process p s c false)) eqn:E1.
    - destruct H as [H1 H2]. rewrite E1, andb_comm. cbn [negb andb]. rewrite H1, H2, E1.
      split; [auto|]. split; [auto|]. discriminate.
    - destruct H as (H1 & H2 & H3). cbn [r_end negb]. rewrite andb_true_r.
      destruct e; cbn [r_end r_state r_chunks].
      + split; [|split].
        * unfold text at 1. cbn [r_chunks]. rewrite app_nil_r, concat_app. symmetry. exact H1.
        * symmetry. apply He.
        * discriminate.
      + split; [|split].
        * unfold text at 1. cbn [r_chunks]. rewrite app_nil_r. reflexivity.
        * now rewrite ?E1.
        * intros _. split; [reflexivity|]. unfold text at 1. cbn [r_chunks]. rewrite app_nil_r. reflexivity. }
  destruct S1 as (S1 & S2 & S3).
  set (r := stage p s [c] e) in *.
  destruct (stages_pure ps Hg' ss (r_chunks r) (r_end r)) as [I1 I2].
  { apply no_in_nil. apply stage_no_empty. assumption. }
  split.
  - rewrite <- S1, <- S2. exact I1.
  - cbn [r_end r_state]. intros H0.
    assert (Er : r_end r = false).
    { destruct (r_end r) eqn:Er; [|reflexivity].
      pose proof (pure_end ps Hg' ss (concat (r_chunks r))) as Hp.
      rewrite <- I1 in Hp. cbn [snd] in Hp. congruence. }
    rewrite I2 by exact H0. destruct (S3 Er) as [S4 S5]. rewrite S4. f_equal. f_equal. exact S5.
Qed.

Lemma oneshot_app p : splits p -> ends p -> forall st a b e,
  let r1 := oneshot p st a false in
  if snd r1 then oneshot p st (a ++ b) e = r1
  else oneshot p st (a ++ b) e =
       (fst r1 ++ fst (oneshot p (next_state p st a) b e), snd (oneshot p (next_state p st a) b e)).
Proof.
  intros Hs He st a b e. cbv zeta. destruct a as [|x a].
  - cbn [oneshot snd fst app next_state]. destruct (oneshot p st b e); reflexivity.
  - cbn [app next_state]. unfold oneshot at 1 2 3 5. cbn [snd fst].
    pose proof (Hs st (x :: a) b e) as H. cbv zeta in H. cbn [app] in H.
    destruct (r_end (process p st (x :: a) false)) eqn:E1.
    + unfold oneshot. destruct H as [H1 H2]. rewrite H1, H2. reflexivity.
    + destruct H as (H1 & H2 & H3). unfold oneshot.
      destruct b as [|y b].
      * rewrite app_nil_r in *. destruct e; cbn [fst snd].
        -- rewrite H1, H2. reflexivity.
        -- rewrite app_nil_r. now rewrite ?E1.
      * rewrite H1, H2. reflexivity.
Qed.

Lemma oneshot_next p : splits p -> forall st a b,
  snd (oneshot p st (a ++ b) false) = false ->
  snd (oneshot p st a false) = false ->
  next_state p st (a ++ b) = next_state p (next_state p st a) b.
Proof.
  intros Hs st a b H0 H1. destruct a as [|x a]; [reflexivity|].
  cbn [next_state app oneshot snd] in *.
  pose proof (Hs st (x :: a) b false) as H. cbv zeta in H. rewrite H1 in H. cbn [app] in H.
  destruct H as (H2 & H3 & H4). rewrite H4 by exact H0.
  destruct b as [|y b]; [|reflexivity].
  cbn [next_state]. rewrite app_nil_r in H4. symmetry. apply H4. rewrite app_nil_r in H0. exact H0.
Qed.

Lemma pure_app ps : Forall good ps -> forall st a b e,
  let r1 := pure ps st a false in
  if snd r1 then pure ps st (a ++ b) e = r1
  else pure ps st (a ++ b) e =
         (fst r1 ++ fst (pure ps (pure_next ps st a) b e), snd (pure ps (pure_next ps st a) b e)) /\
       (snd (pure ps st (a ++ b) false) = false ->
        pure_next ps st (a ++ b) = pure_next ps (pure_next ps st a) b).
Proof.
  induction ps as [|p ps IH]; intros Hg st a b e.
  - cbn. destruct st. auto.
  - inversion Hg as [|? ? (Hs & He & Hn) Hg']; subst. cbn [pure pure_next]. cbv zeta. cbn [fst snd].
    pose proof (oneshot_app p Hs He (fst st) a b) as H. cbv zeta in H.
    destruct (oneshot p (fst st) a false) as [t1 e1] eqn:E1. cbn [fst snd] in *.
    destruct e1.
    + rewrite !H. cbn [fst snd]. rewrite (pure_end ps Hg'). reflexivity.
    + pose proof (fun b => IH Hg' (snd st) t1 b) as IH2. cbv zeta in IH2.
      destruct (snd (pure ps (snd st) t1 false)) eqn:E2.
      * rewrite !H. cbn [fst snd]. apply IH2.
      * rewrite !H. cbn [fst snd]. split; [apply IH2|].
        intros H0. specialize (IH2 (fst (oneshot p (next_state p (fst st) a) b false))
            (snd (oneshot p (next_state p (fst st) a) b false))) as [_ IH3].
        assert (Hno : snd (oneshot p (next_state p (fst st) a) b false) = false).
        { destruct (snd (oneshot p (next_state p (fst st) a) b false)) eqn:E3; [|reflexivity].
          rewrite (pure_end ps Hg') in H0. discriminate. }
        rewrite Hno in H0.
        f_equal.
        -- apply oneshot_next; [assumption| |].
           ++ rewrite H. exact Hno.
           ++ rewrite E1. reflexivity.
        -- apply IH3. exact H0.
Qed.

Lemma stages_splits p ps : Forall good (p :: ps) -> forall (s : St p) (ss : states ps) a b e,
  let st := (s, ss) : states (p :: ps) in
  let r1 := stages (p :: ps) st [a] false in
  let r := stages (p :: ps) st [a ++ b] e in
  if r_end r1 then text r = text r1 /\ r_end r = true
  else let r2 := stages (p :: ps) (r_state r1) [b] e in
       text r = text r1 ++ text r2 /\ r_end r = r_end r2 /\
       (r_end r = false -> r_state r = r_state r2).
Proof.
  intros Hg s ss a b e st. cbv zeta.
  pose proof Hg as Hg0. inversion Hg as [|? ? (Hs & He & Hn) Hg']; subst.
  pose proof (fun c e => stages_raw ps p Hg0 s ss c e) as R. cbv zeta in R. fold st in R.
  destruct (R a false) as [Ra Ra2].
  pose proof (Hs s a b) as H. cbv zeta in H.
  assert (Ta : text (stages (p :: ps) st [a] false) =
     fst (pure ps ss (text (process p s a false)) (r_end (process p s a false))))
    by (rewrite <- Ra; reflexivity).
  assert (Ea : r_end (stages (p :: ps) st [a] false) =
     snd (pure ps ss (text (process p s a false)) (r_end (process p s a false))))
    by (rewrite <- Ra; reflexivity).
  destruct (R (a ++ b) e) as [Rab Rab2].
  destruct (r_end (process p s a false)) eqn:E1; rewrite ?E1 in Ta, Ea.
  - rewrite Ea, (pure_end ps Hg'). destruct (H e) as [H1 H2]. rewrite H1, H2 in Rab.
    pose proof (f_equal fst Rab) as X1. pose proof (f_equal snd Rab) as X2. cbn [fst snd] in X1, X2.
    split; [exact (eq_trans X1 (eq_sym Ta))|]. exact (eq_trans X2 (pure_end ps Hg' _ _)).
  - pose proof (fun b e => pure_app ps Hg' ss (text (process p s a false)) b e) as P.
    cbv zeta in P. rewrite Ea.
    destruct (snd (pure ps ss (text (process p s a false)) false)) eqn:E2.
    + destruct (H e) as (H1 & H2 & H3). rewrite H1, P in Rab.
      pose proof (f_equal fst Rab) as X1. pose proof (f_equal snd Rab) as X2. cbn [fst snd] in X1, X2.
      split; [exact (eq_trans X1 (eq_sym Ta))|]. exact (eq_trans X2 E2).
    + rewrite (Ra2 Ea) in *.
      destruct (stages_raw ps p Hg0 (r_state (process p s a false))
         (pure_next ps ss (text (process p s a false))) b e) as [Rb Rb2].
      cbv zeta in Rb, Rb2.
      destruct (H e) as (H1 & H2 & H3).
      rewrite H1, H2 in Rab. destruct (P (text (process p (r_state (process p s a false)) b e))
         (r_end (process p (r_state (process p s a false)) b e))) as [P1 P2].
      rewrite P1 in Rab. rewrite <- Rb in Rab. cbn [fst snd] in Rab.
      rewrite <- Ta in Rab.
      pose proof (f_equal fst Rab) as T1. pose proof (f_equal snd Rab) as T2. cbn [fst snd] in T1, T2.
      split; [exact T1|]. split; [exact T2|]. intros H0.
      refine (eq_trans (Rab2 H0) _). pose proof (eq_trans (eq_sym T2) H0) as H0b. clear H0. rename H0b into H0. refine (eq_trans _ (eq_sym (Rb2 H0))).
      assert (Ee : e = false).
      { destruct e; [|reflexivity].
        assert (X : snd (pure ps (pure_next ps ss (text (process p s a false)))
           (text (process p (r_state (process p s a false)) b true))
           (r_end (process p (r_state (process p s a false)) b true))) = true)
          by (rewrite He; apply (pure_end ps Hg')).
        rewrite <- Rb in X. cbn [snd] in X. congruence. }
      subst e.
      assert (Eb : r_end (process p (r_state (process p s a false)) b false) = false).
      { destruct (r_end (process p (r_state (process p s a false)) b false)) eqn:Eb; [|reflexivity].
        pose proof (pure_end ps Hg' (pure_next ps ss (text (process p s a false)))
           (text (process p (r_state (process p s a false)) b false))) as X.
        rewrite <- Rb in X. cbn [snd] in X. congruence. }
      rewrite H3 by (rewrite H2; exact Eb). f_equal. rewrite H1. apply P2.
      destruct (P (text (process p (r_state (process p s a false)) b false)) false) as [P3 _].
      rewrite P3. cbn [snd]. rewrite Eb in Rb. rewrite <- Rb. exact H0.
Qed.

Lemma composite_splits p ps : Forall good (p :: ps) -> splits (composite (p :: ps)).
Proof. intros Hg. intros [s ss]. exact (stages_splits p ps Hg s ss). Qed.

Lemma composite_ends p ps : Forall good (p :: ps) -> ends (composite (p :: ps)).
Proof.
  intros Hg [s ss] a. pose proof Hg as Hg0. inversion Hg as [|? ? (Hs & He & Hn) Hg']; subst.
  change (process (composite (p :: ps)) (s, ss) a true) with (stages (p :: ps) (s, ss) [a] true).
  destruct (stages_raw ps p Hg0 s ss a true) as [R _]. cbv zeta in R.
  rewrite He in R. pose proof (pure_end ps Hg' ss (text (process p s a true))) as X.
  rewrite <- R in X. exact X.
Qed.

(** One-shot meaning of a composite run. *)
Lemma composite_once p ps : Forall good (p :: ps) -> forall (s : St p) (ss : states ps) t,
  text (process (composite (p :: ps)) (s, ss) t true) =
  fst (pure ps ss (text (process p s t true)) true).
Proof.
  intros Hg s ss t. pose proof Hg as Hg0. inversion Hg as [|? ? (Hs & He & Hn) Hg']; subst.
  change (process (composite (p :: ps)) (s, ss) t true) with (stages (p :: ps) (s, ss) [t] true).
  destruct (stages_raw ps p Hg0 s ss t true) as [R _]. cbv zeta in R. rewrite He in R.
  rewrite <- R. reflexivity.
Qed.

(** ** The processors are good *)
Lemma compact_good : good compact_proc.
Proof.
  split; [exact compact_splits|]. split.
  - intros st a. cbn [process compact_proc]. unfold comp_process. destruct (loop comp_step st a). reflexivity.
  - intros st a e. cbn [process compact_proc]. unfold comp_process. destruct (loop comp_step st a).
    apply single_no_empty.
Qed.
Lemma head_ends n : ends (head_proc n).
Proof.
  intros st a. cbn [process head_proc]. unfold head_process. destruct (n <=? st)%Z; [reflexivity|].
  destruct (head_loop n st a) as [[l2 o2] [|]]; reflexivity.
Qed.
Lemma head_good n : good (head_proc n).
Proof.
  split; [apply head_splits|]. split; [apply head_ends|].
  intros st a e. cbn [process head_proc]. unfold head_process. destruct (n <=? st)%Z; [apply single_no_empty|].
  destruct (head_loop n st a) as [[l2 o2] [|]]; apply single_no_empty.
Qed.
Lemma loop_good {S} (i : S) step : good (loop_proc i step).
Proof. split; [apply loop_proc_splits|split; [apply loop_proc_ends|apply loop_proc_no_empty]]. Qed.
Lemma implode_good : good implode_proc.
Proof.
  split; [exact implode_splits|]. split.
  - intros st a. cbn [process implode_proc]. unfold impl_process. destruct (loop impl_step _ a). reflexivity.
  - intros st a e. cbn [process implode_proc]. unfold impl_process. destruct (loop impl_step _ a).
    apply single_no_empty.
Qed.
Lemma quote_ends : ends quote_proc.
Proof. intros st a. cbn [process quote_proc]. unfold quote_process. destruct (loop _ true a). reflexivity. Qed.
Lemma chunk_values_ends : ends chunk_values_proc.
Proof.
  intros st a. change (process chunk_values_proc) with chunk_process. rewrite chunk_process_eq. cbv zeta. cbn [r_end].
  apply compact_good.
Qed.

Lemma op_splits_ends o : splits (op_proc o) /\ ends (op_proc o).
Proof.
  pose proof compact_good as Hc.
  destruct o; cbn [op_proc];
    try (split; [apply composite_splits|apply composite_ends]; repeat constructor;
         try apply Hc; try apply head_good; try apply loop_good; try apply implode_good; fail).
  - split; [apply pretty_splits|apply (loop_proc_ends _ (pretty_step indent))].
  - split; [apply loop_proc_splits|apply loop_proc_ends].
  - split; [apply loop_proc_splits|apply loop_proc_ends].
  - split; [apply loop_proc_splits|apply loop_proc_ends].
  - split; [apply quote_splits|apply quote_ends].
  - split; [apply chunk_values_splits|apply chunk_values_ends].
Qed.

Lemma op_run_once o items :
  concat (run (op_proc o) items) = text (process (op_proc o) (init (op_proc o)) (given items) true).
Proof. destruct (op_splits_ends o) as [Hs He]. apply run_from_one; assumption. Qed.

Lemma chunk_independent o items1 items2 :
  given items1 = given items2 ->
  concat (run (op_proc o) items1) = concat (run (op_proc o) items2).
Proof. intros H. rewrite !op_run_once, H. reflexivity. Qed.
