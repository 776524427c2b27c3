(** Opening a directory, the shape of the log, and the end of loading *)
From Coq Require Import String.
From Coq Require Import NArith List Bool PeanoNat Lia ZifyN Relations Permutation.
From Verif Require Import StoreModel StoreSpec StoreNameProofs StoreClosureProofs
  StoreFileProofs StoreInvProofs StoreStepProofs StoreRunProofs StoreHistoryProofs
  StoreCallProofs StoreOutcomeProofs.
Import ListNotations.
Local Open Scope nat_scope.

Section Reopen.
Context {Bag Custom : Type}.
Notation files := (@files Bag Custom).
Notation to_add := (@to_add Bag Custom).
Notation meta := (@meta Custom).
Notation manager := (@manager Custom).
Notation world := (@world Bag Custom).
Notation call := (@call Bag Custom).
Notation task := (@task Bag Custom).
Notation after := (@after Bag Custom).
Notation result := (@result Bag).
Notation commit := (@commit Bag Custom).
Notation event := (@event Bag Custom).
Variable pick : list string -> nat.
Variable process_of : nat -> nat.
Notation step := (step pick process_of true).
Notation run := (run pick process_of true).

(** ** Directories of managers exist *)

Definition task_dirs (dirs : list dir) (tk : task) : Prop :=
  match tk with
  | NewGlob d _ | PersistExists d _ _ | PersistOpen d _ _ | PersistWrite d _ _ _
  | PersistRename d _ _ _ | PersistRenameNow d _ _ _ | FromGlob d | FromLatest d
  | FromRead d _ | OutGlob d _ => In d dirs
  | AddStart g _ _ | Writing g _ _ _ _ => In (g_dir g) dirs
  | _ => True
  end.
Definition thread_dirs (dirs : list dir) (th : @thread Bag Custom) : Prop :=
  (forall g, In g (managers th) -> In (g_dir g) dirs)
  /\ match running th with Some (_, tk) => task_dirs dirs tk | None => True end.
Definition dirs_ok (w : world) : Prop :=
  (forall c, In c (w_log w) -> In (c_dir c) (w_dirs w))
  /\ forall t, thread_dirs (w_dirs w) (w_threads w t).

Lemma task_dirs_incl a b tk : incl a b -> task_dirs a tk -> task_dirs b tk.
Proof. intros H. destruct tk; cbn; auto. Qed.
Lemma thread_dirs_incl a b th : incl a b -> thread_dirs a th -> thread_dirs b th.
Proof.
  intros H [A B]. split; [auto|]. destruct (running th) as [[c tk]|]; [|exact B].
  eapply task_dirs_incl; eauto.
Qed.

Lemma dir_exists_In (w : world) d : dir_exists w d = true <-> In d (w_dirs w).
Proof.
  unfold dir_exists. rewrite existsb_exists. split.
  - intros (x & A & B). apply String.eqb_eq in B. now subst.
  - intros A. exists d. split; [exact A|apply String.eqb_refl].
Qed.

Lemma dirs_same_log (w w' : world) t :
  dirs_ok w -> incl (w_dirs w) (w_dirs w') -> local t w w' -> w_log w' = w_log w ->
  thread_dirs (w_dirs w') (w_threads w' t) -> dirs_ok w'.
Proof.
  intros [A B] S [L _] E T. split.
  - intros c I. rewrite E in I. auto.
  - intros t'. destruct (Nat.eq_dec t' t) as [ -> |N]; [exact T|].
    rewrite L; [|exact N]. eapply thread_dirs_incl; eauto.
Qed.

Lemma dirs_goto (w w1 : world) t tk : dirs_ok w -> incl (w_dirs w) (w_dirs w1) ->
  w_threads w1 = w_threads w -> w_log w1 = w_log w ->
  task_dirs (w_dirs w1) tk -> dirs_ok (goto w1 t tk).
Proof.
  intros D S E L T. unfold goto. rewrite E.
  destruct (running (w_threads w t)) as [[c tk0]|] eqn:R.
  - eapply (dirs_same_log w _ t); [exact D|exact S| |exact L|].
    + apply (local_trans t w w1); [now apply local_same|apply local_set_thread].
    + rewrite set_thread_same. split; [|exact T]. cbn. intros g G.
      apply S. now apply (proj1 (proj2 D t)).
  - eapply (dirs_same_log w _ t); [exact D|exact S|now apply local_same|exact L|].
    rewrite E. eapply thread_dirs_incl; [exact S|]. apply D.
Qed.

Lemma dirs_raise (w : world) t e : dirs_ok w -> dirs_ok (raise_ w t e).
Proof.
  intros D. eapply (dirs_same_log w _ t); [exact D|apply incl_refl|apply local_set_thread|reflexivity|].
  unfold raise_, return_. rewrite set_thread_same. split; [|exact Logic.I]. apply D.
Qed.
Lemma dirs_return (w w1 : world) t r : dirs_ok w -> w_dirs w1 = w_dirs w ->
  w_threads w1 = w_threads w -> w_log w1 = w_log w -> dirs_ok (return_ w1 t r).
Proof.
  intros D E1 E2 E3. eapply (dirs_same_log w _ t); [exact D|cbn; rewrite E1; apply incl_refl| |exact E3|].
  - apply (local_trans t w w1); [now apply local_same|apply local_set_thread].
  - unfold return_. rewrite set_thread_same. split; [|exact Logic.I]. cbn. rewrite E1, E2. apply D.
Qed.

Lemma dirs_all_loaded (w w1 : world) t g l p : dirs_ok w -> w_dirs w1 = w_dirs w ->
  w_threads w1 = w_threads w -> w_log w1 = w_log w -> dirs_ok (all_loaded w1 t g l p).
Proof.
  intros D E1 E2 E3.
  assert (D1 : dirs_ok w1) by (unfold dirs_ok; rewrite E1, E2, E3; exact D).
  destruct p; cbn [all_loaded].
  - now apply (dirs_return w1).
  - destruct (bags_to_extract _ _ _); [now apply (dirs_return w1)|now apply dirs_raise].
  - destruct (bags_to_extract _ _ _); [|now apply dirs_raise].
    apply (dirs_goto w1); auto using incl_refl. exact Logic.I.
Qed.

Lemma dirs_log (w : world) t d n k fs cc : dirs_ok w -> In d (w_dirs w) ->
  dirs_ok (World fs (w_dirs w) (w_used w) (w_threads w) cc (w_log w ++ [Commit t d n k])).
Proof.
  intros D I. split; [|apply D]. cbn. intros c C.
  apply in_app_iff in C as [C|[ <- |[]]]; [now apply D|exact I].
Qed.

Lemma dirs_committed (w : world) t d m k : dirs_ok w -> In d (w_dirs w) ->
  dirs_ok (committed process_of w t d m k).
Proof.
  intros D I.
  assert (LOG : forall n x, dirs_ok (log_commit w (Commit t d n x)))
    by (intros n x; apply (dirs_log w t d n x (w_files w) (w_caches w) D I)).
  destruct k as [|i g bags|bags|bags|]; cbn [committed].
  - eapply (dirs_same_log (log_commit w (Commit t d (m_number m) Created)) _ t);
      [apply LOG|apply incl_refl|apply local_set_thread|reflexivity|].
    unfold return_manager. rewrite set_thread_same. split; [|exact Logic.I]. cbn.
    intros g G. apply in_app_iff in G as [G|[ <- |[]]]; [exact (proj1 (proj2 D t) _ G)|exact I].
  - eapply (dirs_same_log (log_commit w (Commit t d (m_number m) (BagsAdded bags))) _ t);
      [apply LOG|apply incl_refl| |reflexivity|].
    + eapply local_trans; [|apply local_set_thread]. now apply local_same.
    + rewrite set_thread_same. split; [|exact Logic.I]. cbn.
      intros g' G. apply (In_replace_nth process_of) in G as [ -> |G]; [exact I|exact (proj1 (proj2 D t) _ G)].
  - destruct (validate _ _); [apply dirs_raise, LOG|].
    eapply dirs_goto; [apply LOG|apply incl_refl|reflexivity|reflexivity|exact I].
  - eapply (dirs_return (log_commit w (Commit t d (m_number m) (BagsAdded bags))));
      [apply LOG|reflexivity|reflexivity|reflexivity].
  - eapply (dirs_return (log_commit w _)); [apply LOG|reflexivity|reflexivity|reflexivity].
Qed.

Lemma dirs_run_task (w : world) t c tk n u : dirs_ok w ->
  running (w_threads w t) = Some (c, tk) -> dirs_ok (run_task process_of true w t tk n u).
Proof.
  intros D R. pose proof (proj2 (proj2 D t)) as TK. rewrite R in TK.
  assert (GO : forall tk', task_dirs (w_dirs w) tk' -> dirs_ok (goto w t tk')).
  { intros tk' T. apply (dirs_goto w w); auto using incl_refl. }
  assert (GOF : forall w1 tk', w_dirs w1 = w_dirs w -> w_threads w1 = w_threads w ->
    w_log w1 = w_log w -> task_dirs (w_dirs w) tk' -> dirs_ok (goto w1 t tk')).
  { intros w1 tk' E1 E2 E3 T. apply (dirs_goto w w1); auto; rewrite E1; [apply incl_refl|exact T]. }
  assert (RA : forall e, dirs_ok (raise_ w t e)) by (intros e; now apply dirs_raise).
  destruct tk as [|d k|d k|d k|d m k|d m k|d m v k|d m v k|d m v k
    |d|d|d|d f|g bags k|g bags v jobs k|g todo loaded p|d o|d o|d o];
    cbn [run_task task_dirs] in *.
  - exact D.
  - destruct (dir_exists w d) eqn:E; apply GO; [now apply dir_exists_In|exact Logic.I].
  - apply (dirs_goto w); auto; [intros x X; now right|now left].
  - destruct (empty_dir w d); auto.
  - destruct (file_exists _ _); auto.
  - destruct (fresh w u); auto.
  - auto.
  - destruct (file_exists _ _); [auto|]. now apply dirs_committed.
  - now apply dirs_committed.
  - destruct (dir_exists w d) eqn:E; [|auto]. apply GO. now apply dir_exists_In.
  - destruct (empty_dir w d); auto.
  - destruct (latest_name _ _); auto.
  - destruct (look _ _) as [[]|]; auto.
    eapply (dirs_same_log w _ t); [exact D|apply incl_refl|apply local_set_thread|reflexivity|].
    unfold return_manager. rewrite set_thread_same. split; [|exact Logic.I]. cbn.
    intros g G. apply in_app_iff in G as [G|[ <- |[]]]; [exact (proj1 (proj2 D t) _ G)|exact TK].
  - destruct (fresh w u); auto.
  - destruct (forallb _ _); [destruct (existsb _ _); auto|].
    destruct (nth_error jobs n) as [j|]; [|exact D].
    unfold job_step. destruct (j_phase j); auto.
  - destruct todo as [|s todo]; [now apply (dirs_all_loaded w)|].
    destruct (bag_filepath g s); [|auto].
    destruct (look _ _) as [[]|]; auto.
    destruct (cache_set _ _ _). destruct todo; [now apply (dirs_all_loaded w)|].
    apply GOF; reflexivity || exact Logic.I.
  - destruct (dir_exists w d) eqn:E; apply GO; [now apply dir_exists_In|exact Logic.I].
  - apply (dirs_goto w); auto; [intros x X; now right|now left].
  - destruct (empty_dir w d); [|auto]. destruct o; cbn [output_ready]; apply GO; cbn; auto.
Qed.

Lemma dirs_begin (w : world) t c : dirs_ok w -> dirs_ok (begin_ pick process_of w t c).
Proof.
  intros D. unfold begin_. cbv zeta. set (w1 := set_thread w t _).
  assert (D1 : dirs_ok w1).
  { eapply (dirs_same_log w _ t); [exact D|apply incl_refl|apply local_set_thread|reflexivity|].
    subst w1. rewrite set_thread_same. split; [apply D|exact Logic.I]. }
  assert (GO : forall tk', task_dirs (w_dirs w) tk' -> dirs_ok (goto w1 t tk')).
  { intros tk' T. apply (dirs_goto w1 w1); auto using incl_refl. }
  assert (RA : forall e, dirs_ok (raise_ w1 t e)) by (intros e; now apply dirs_raise).
  assert (SL : forall g names deps p, dirs_ok (start_loading pick process_of w1 t g names deps p)).
  { intros g names deps p. unfold start_loading.
    destruct (dependency_closure _ _ _ _); [|auto].
    destruct (from_cache _ _ _) as [[found [|s todo]]|]; [now apply (dirs_all_loaded w1)| |auto].
    apply GO. exact Logic.I. }
  destruct c as [d|d|i bags|i names deps|i names deps|i names deps d|i names deps d];
    try (apply GO; exact Logic.I);
    destruct (nth_error (managers (w_threads w t)) i) as [g|] eqn:G; auto.
  - destruct (validate _ _); [auto|]. apply GO. cbn. apply (proj1 (proj2 D t)).
    eapply nth_error_In; eauto.
  - destruct (dependency_closure _ _ _ _); [|auto]. apply GO. exact Logic.I.
Qed.

Lemma dirs_event (w : world) ev : dirs_ok w -> dirs_ok (step w ev).
Proof.
  intros D. destruct ev as [t c|t n u|t n|t|p keep]; cbn [StoreModel.step].
  - destruct (running (w_threads w t)) as [[c' tk]|] eqn:R; [exact D|]. now apply dirs_begin.
  - destruct (running (w_threads w t)) as [[c tk]|] eqn:R; [|exact D].
    eapply dirs_run_task; eauto.
  - destruct (running (w_threads w t)) as [[c tk]|] eqn:R; [|exact D].
    destruct tk; cbn [fail_task]; try (now apply dirs_raise).
    destruct (nth_error jobs n) as [j|]; [|exact D]. destruct (job_over j); [exact D|].
    apply (dirs_goto w w); auto using incl_refl.
    pose proof (proj2 (proj2 D t)) as TK. rewrite R in TK. exact TK.
  - eapply (dirs_same_log w _ t); [exact D|apply incl_refl|apply local_set_thread|reflexivity|].
    rewrite set_thread_same. split; [intros g []|exact Logic.I].
  - exact D.
Qed.

Lemma dirs_reachable (evs : list event) : dirs_ok (run start evs).
Proof.
  induction evs as [|ev evs IH] using rev_ind.
  - split; [intros c []|]. intros t. split; [intros g []|exact Logic.I].
  - rewrite run_snoc. now apply dirs_event.
Qed.

Lemma dirs_run (evs : list event) : forall w, dirs_ok w -> dirs_ok (run w evs).
Proof. induction evs as [|ev evs IH]; intros w D; [exact D|]. apply IH. now apply dirs_event. Qed.

(** ** create_from_dir *)

Definition opening (w0 : world) (t : nat) (d : dir) (es : list event) (w : world) : Prop :=
  let ms := managers (w_threads w0 t) in
  let n := N.of_nat (count (w_log w0) d) in
  match running (w_threads w t) with
  | Some (c, tk) =>
      managers (w_threads w t) = ms /\ c = CreateFromDir d
      /\ match tk with
         | FromRead d' f => d' = d /\ exists k, f = MetaFile k /\ (n <= k + 1)%N
         | FromExists d' | FromGlob d' | FromLatest d' => d' = d
         | _ => False
         end
  | None =>
      match outcome (w_threads w t) with
      | Failed e =>
          managers (w_threads w t) = ms
          /\ match e with
             | IoError => io_error t es
             | NoDirectory | NoMetadata => n = 0%N
             | _ => False
             end
      | NewManager =>
          exists m, managers (w_threads w t) = ms ++ [Manager d m]
            /\ (n <= m_number m + 1)%N
            /\ look (w_files w) (d, MetaFile (m_number m)) = Some (MetaContent m)
      | _ => False
      end
  end.

Lemma last_file (w0 w : world) d : inv w0 -> few_updates w0 ->
  keeps (w_files w0) (w_files w) -> count (w_log w0) d <> 0 ->
  exists k, N.of_nat (count (w_log w0) d) = (k + 1)%N /\ (k < capacity)%N
    /\ look (w_files w) (d, MetaFile k) <> None.
Proof.
  intros I FU K C. destruct (count (w_log w0) d) as [|n] eqn:E; [congruence|].
  exists (N.of_nat n). split; [lia|]. split.
  - destruct (commit_in_log w0 d (N.of_nat n) I) as (c & X & _ & Y); [lia|].
    specialize (FU c X). rewrite Y in FU. exact FU.
  - pose proof (i_meta w0 I d (N.of_nat n)) as M. rewrite E in M.
    replace (N.of_nat n <? N.of_nat (S n))%N with true in M by lia.
    destruct M as (m & l & A & _). rewrite (proj2 K _ _ _ A). discriminate.
Qed.

Lemma opening_step (w0 w : world) t d es ev :
  inv w0 -> few_updates w0 -> dirs_ok w0 -> inv w -> incl (w_dirs w0) (w_dirs w) ->
  keeps (w_files w0) (w_files w) ->
  during t (es ++ [ev]) -> opening w0 t d es w -> opening w0 t d (es ++ [ev]) (step w ev).
Proof.
  intros I0 FU D0 I S K D O. apply during_app in D as [_ D]. specialize (D ev (or_introl eq_refl)).
  pose proof (step_keeps pick process_of w ev I) as K'.
  assert (W : forall w' ev', opening w0 t d es w' -> opening w0 t d (es ++ [ev']) w').
  { intros w' ev'. unfold opening. destruct (running (w_threads w' t)) as [[c tk]|]; [auto|].
    destruct (outcome (w_threads w' t)) as [| | | | | | |e]; auto.
    intros [A B]. split; [exact A|]. destruct e; auto. now apply io_error_app. }
  destruct (by_thread_dec t ev) as [B|B].
  2:{ destruct (step_other pick process_of t w ev B) as (T & _). apply W.
      unfold opening in *. rewrite T.
      destruct (running (w_threads w t)) as [[c tk]|]; [exact O|].
      destruct (outcome (w_threads w t)) as [| | | | | | |e]; try exact O.
      destruct O as (m & O1 & O2 & O3). exists m. split; [exact O1|]. split; [exact O2|].
      now apply (proj2 K'). }
  destruct (running (w_threads w t)) as [[c tk]|] eqn:R.
  2:{ assert (step w ev = w) as ->; [|now apply W].
      destruct ev as [t' c'|t' n u|t' n|t'|p keep]; cbn in B; try contradiction; subst t';
        try congruence; cbn; now rewrite R. }
  unfold opening in O. rewrite R in O. destruct O as (M & -> & TK).
  assert (GO : forall tk', match tk' with
         | FromRead d' f => d' = d /\ exists k, f = MetaFile k
             /\ (N.of_nat (count (w_log w0) d) <= k + 1)%N
         | FromExists d' | FromGlob d' | FromLatest d' => d' = d
         | _ => False
         end -> opening w0 t d (es ++ [ev]) (goto w t tk')).
  { intros tk' T. unfold opening. rewrite (running_goto w t _ _ tk' R). cbn. auto. }
  assert (RA : forall e, match e with
             | IoError => io_error t (es ++ [ev])
             | NoDirectory | NoMetadata => N.of_nat (count (w_log w0) d) = 0%N
             | _ => False
             end -> opening w0 t d (es ++ [ev]) (raise_ w t e)).
  { intros e E. unfold opening, raise_, return_. rewrite set_thread_same. cbn. auto. }
  destruct ev as [t' c'|t' n u|t' n|t'|p keep]; cbn in B; try contradiction; subst t';
    try congruence; cbn [StoreModel.step]; rewrite R.
  - destruct tk; try contradiction; cbn [run_task].
    + subst d0. destruct (dir_exists w d) eqn:E; [now apply GO|]. apply RA.
      destruct (count (w_log w0) d) eqn:C; [reflexivity|]. exfalso.
      destruct (commit_in_log w0 d 0%N I0) as (c & X & Y & _); [lia|].
      apply (proj1 D0) in X. rewrite Y in X. apply S in X. apply dir_exists_In in X. congruence.
    + subst d0. destruct (empty_dir w d) eqn:E; [|now apply GO]. apply RA.
      destruct (Nat.eq_dec (count (w_log w0) d) 0) as [C|C]; [now rewrite C|]. exfalso.
      destruct (last_file w0 w d I0 FU K C) as (k & _ & _ & L). apply listing_In in L.
      unfold empty_dir in E. now destruct (listing (w_files w) d).
    + subst d0. destruct (latest_name (w_files w) d) as [f|] eqn:E.
      * apply GO. split; [reflexivity|].
        destruct (latest_name_some _ _ _ E) as (k & -> & _ & _ & MAX). exists k.
        split; [reflexivity|].
        destruct (Nat.eq_dec (count (w_log w0) d) 0) as [C|C]; [lia|].
        destruct (last_file w0 w d I0 FU K C) as (k' & C1 & C2 & C3). specialize (MAX k' C2 C3). lia.
      * apply RA. destruct (Nat.eq_dec (count (w_log w0) d) 0) as [C|C]; [now rewrite C|]. exfalso.
        destruct (last_file w0 w d I0 FU K C) as (k & _ & C2 & L).
        apply L, (latest_name_none _ _ E k C2).
    + destruct TK as (-> & k & -> & LE).
      destruct (i_threads w I t) as [_ TKO]. rewrite R in TKO. destruct TKO as (_ & k' & x & E & L).
      injection E as <-. rewrite L.
      destruct (meta_manager w d k x I L) as (m & l & -> & NUM & _).
      unfold opening, return_manager. rewrite set_thread_same. cbn.
      exists m. split; [congruence|]. rewrite NUM. auto.
  - assert (IO : io_error t (es ++ [Fail t n])).
    { exists n. apply in_app_iff. right. now left. }
    destruct tk; try contradiction; cbn [fail_task]; now apply RA.
Qed.

Lemma dirs_goto_same (w : world) t tk : w_dirs (goto w t tk) = w_dirs w.
Proof. unfold goto. destruct (running (w_threads w t)) as [[c tk0]|]; reflexivity. Qed.

Lemma dirs_grow (w : world) ev : incl (w_dirs w) (w_dirs (step w ev)).
Proof.
  assert (AL : forall (w : world) t g l p, w_dirs (all_loaded w t g l p) = w_dirs w).
  { intros w1 t g l p. destruct p; cbn [all_loaded]; [reflexivity| |];
      destruct (bags_to_extract _ _ _); try reflexivity. apply dirs_goto_same. }
  assert (CM : forall (w : world) t d m k, w_dirs (committed process_of w t d m k) = w_dirs w).
  { intros w1 t d m k. destruct k; cbn [committed]; try reflexivity.
    destruct (validate _ _); [reflexivity|]. now rewrite dirs_goto_same. }
  destruct ev as [t c|t n u|t n|t|p keep]; cbn [StoreModel.step]; try apply incl_refl.
  - destruct (running (w_threads w t)) as [[c' tk]|]; [apply incl_refl|].
    assert (E : w_dirs (begin_ pick process_of w t c) = w_dirs w); [|rewrite E; apply incl_refl].
    destruct c; unfold begin_, start_loading; cbv zeta;
      repeat match goal with |- context [match ?x with _ => _ end] =>
        lazymatch x with running _ => fail | match _ with _ => _ end => fail | _ => destruct x end end;
      rewrite ?AL, ?dirs_goto_same; reflexivity.
  - destruct (running (w_threads w t)) as [[c tk]|] eqn:R; [|apply incl_refl].
    destruct tk; cbn [run_task]; unfold job_step, output_ready;
      repeat match goal with |- context [match ?x with _ => _ end] =>
        lazymatch x with running _ => fail | match _ with _ => _ end => fail | _ => destruct x end end;
      rewrite ?AL, ?CM, ?dirs_goto_same; try apply incl_refl; try (intros x X; now right).
  - destruct (running (w_threads w t)) as [[c tk]|] eqn:R; [|apply incl_refl].
    destruct tk; cbn [fail_task];
      repeat match goal with |- context [match ?x with _ => _ end] =>
        lazymatch x with running _ => fail | match _ with _ => _ end => fail | _ => destruct x end end;
      rewrite ?dirs_goto_same; apply incl_refl.
Qed.

Lemma count_app (a b : list commit) d : count (a ++ b) d = count a d + count b d.
Proof. unfold count, changes_of. now rewrite filter_app, map_app, app_length. Qed.

Lemma prefix_of (ext : list commit) d : forall log n,
  count log d <= n <= count (log ++ ext) d ->
  exists a b, ext = a ++ b /\ count (log ++ a) d = n.
Proof.
  induction ext as [|c ext IH]; intros log n H.
  - rewrite app_nil_r in H. exists [], []. split; [reflexivity|]. rewrite app_nil_r. lia.
  - destruct (Nat.eq_dec (count log d) n) as [E|E].
    + exists [], (c :: ext). rewrite app_nil_r. auto.
    + destruct (IH (log ++ [c]) n) as (a & b & -> & C).
      * rewrite <- app_assoc. cbn [app]. rewrite count_app.
        assert (count [c] d <= 1).
        { unfold count, changes_of. cbn. destruct (String.eqb (c_dir c) d); cbn; lia. }
        lia.
      * exists (c :: a), b. split; [reflexivity|]. rewrite <- app_assoc in C. exact C.
Qed.

Lemma replay_first_prefix (a b : list commit) d :
  replay_first (count a d) (a ++ b) d = replay a d.
Proof.
  unfold replay_first, replay, count, changes_of. rewrite filter_app, map_app.
  rewrite firstn_app, firstn_all, Nat.sub_diag. cbn. now rewrite app_nil_r.
Qed.

Theorem open_outcome (w : world) t d es :
  inv w -> dirs_ok w -> few_updates w -> running (w_threads w t) = None -> during t es ->
  let w' := run w (Start t (CreateFromDir d) :: es) in
  exists ext, w_log w' = w_log w ++ ext /\ own t ext = []
  /\ match running (w_threads w' t), outcome (w_threads w' t) with
     | None, NewManager =>
         exists g before after,
           managers (w_threads w' t) = managers (w_threads w t) ++ [g]
           /\ g_dir g = d
           /\ ext = before ++ after
           /\ bags_of w' g = replay (w_log w ++ before) d
     | None, Failed e =>
         managers (w_threads w' t) = managers (w_threads w t)
         /\ match e with
            | IoError => io_error t es
            | NoDirectory | NoMetadata => visible w d = None
            | _ => False
            end
     | None, _ => False
     | Some _, _ => managers (w_threads w' t) = managers (w_threads w t)
     end.
Proof.
  intros I DI FU R D w'.
  assert (IW : inv w') by now apply inv_run.
  destruct (run_log pick process_of es (step w (Start t (CreateFromDir d)))) as (ext & L).
  assert (L0 : w_log (step w (Start t (CreateFromDir d))) = w_log w).
  { cbn [StoreModel.step]. rewrite R. unfold begin_, goto. rewrite set_thread_same. reflexivity. }
  rewrite L0 in L. exists ext. split; [exact L|].
  assert (OWN : own t ext = []).
  { pose proof (call_status pick process_of w t (CreateFromDir d) es I R D) as (x & LX & ST).
    assert (x = ext) as ->.
    { apply (app_inv_head (w_log w)). rewrite <- LX. exact L. }
    assert (SF : forall y : list commit, so_far t (CreateFromDir d) y -> own t y = []).
    { intros y [Y|(? & ? & ? & ? & E & _)]; [exact Y|discriminate]. }
    destruct ST as [(tk & _ & _ & A & _)|(_ & [(e & _ & _ & A & _)|
      (wa & wb & x1 & x2 & A1 & A2 & A3 & A4 & A5 & A6 & A7 & A8 & A9 & A10 & A11)])]; auto.
    cbn [succeeded] in A1. destruct A1 as (_ & E & _).
    assert (ext = x1 ++ x2) as ->.
    { apply (app_inv_head (w_log w)). rewrite <- LX, A9, E, A8. now rewrite app_assoc. }
    rewrite own_app, (SF _ A10), A11. reflexivity. }
  split; [exact OWN|].
  assert (OP : opening w t d es w').
  { assert (X : opening w t d es (run (step w (Start t (CreateFromDir d))) es)
      /\ keeps (w_files w) (w_files (run (step w (Start t (CreateFromDir d))) es))
      /\ incl (w_dirs w) (w_dirs (run (step w (Start t (CreateFromDir d))) es))
      /\ inv (run (step w (Start t (CreateFromDir d))) es)); [|apply X].
    clear L L0 OWN IW w' ext. induction es as [|ev es IH] using rev_ind.
    - cbn [StoreModel.run fold_left]. split; [|split; [now apply step_keeps|split; [apply dirs_grow|now apply inv_event]]].
      cbn [StoreModel.step]. rewrite R. unfold begin_, goto, opening.
      rewrite set_thread_same. cbn [running]. rewrite set_thread_same. cbn. auto.
    - destruct (during_app _ _ _ D) as [D1 _]. destruct (IH D1) as (A1 & A2 & A3 & A4).
      rewrite run_snoc. split; [now apply opening_step|].
      split; [eapply keeps_trans; [exact A2|now apply step_keeps]|].
      split; [eapply incl_tran; [exact A3|apply dirs_grow]|now apply inv_event]. }
  change (run (step w (Start t (CreateFromDir d))) es) with w' in L. clearbody w'. clear L0.
  unfold opening in OP.
  destruct (running (w_threads w' t)) as [[c tk]|]; [apply OP|].
  destruct (outcome (w_threads w' t)) as [| | | | | | |e]; try contradiction.
  - destruct OP as (m & A & B & C).
    destruct (meta_manager w' d _ _ IW C) as (m' & l & E & _ & MB & LT & RP).
    injection E as <-.
    destruct (prefix_of ext d (w_log w) (S (N.to_nat (m_number m)))) as (a & b & E & CN).
    { rewrite L in LT. lia. }
    exists (Manager d m), a, b. split; [exact A|]. split; [reflexivity|]. split; [exact E|].
    unfold bags_of. cbn [g_dir g_meta]. destruct MB as (_ & MB & _). cbn in MB. rewrite MB, <- RP.
    rewrite L, E, app_assoc, <- CN. apply replay_first_prefix.
  - destruct OP as [A B]. split; [exact A|]. destruct e; try exact B.
    + rewrite visible_replay by assumption. apply replay_none. lia.
    + rewrite visible_replay by assumption. apply replay_none. lia.
Qed.

(** ** The log *)

Lemma versions_unique (w : world) : inv w ->
  NoDup (map (fun c => (c_dir c, c_number c)) (w_log w)).
Proof.
  intros I. pose proof (i_numbers w I) as NI.
  assert (H : forall d, NoDup (map c_number (filter (fun c => String.eqb (c_dir c) d) (w_log w)))).
  { intros d. rewrite (NI d). apply FinFun.Injective_map_NoDup; [intros x y; lia|apply seq_NoDup]. }
  clear NI. induction (w_log w) as [|c l IH]; [constructor|]. cbn. constructor.
  - intros X. apply in_map_iff in X as (c' & E & X).
    assert (E1 : c_dir c' = c_dir c) by congruence.
    assert (E2 : c_number c' = c_number c) by congruence.
    specialize (H (c_dir c)). cbn in H. rewrite String.eqb_refl in H. cbn in H.
    inversion H as [|? ? N _]; subst. apply N. rewrite <- E2. apply in_map.
    apply filter_In. split; [exact X|]. rewrite E1. apply String.eqb_refl.
  - apply IH. intros d. specialize (H d). cbn in H.
    destruct (String.eqb (c_dir c) d); [|exact H]. now inversion H.
Qed.

Definition shaped (c : commit) : Prop :=
  match c_change c with BagsAdded _ => c_number c <> 0%N | _ => c_number c = 0%N end.

Lemma shaped_finished (w w' : world) t c ms : finished w w' t c ms ->
  exists ext, w_log w' = w_log w ++ ext /\ Forall shaped ext.
Proof.
  intros [_ F].
  assert (SAME : w_log w' = w_log w -> exists ext, w_log w' = w_log w ++ ext /\ Forall shaped ext).
  { intros E. exists []. rewrite app_nil_r. auto. }
  assert (ONE : forall x, w_log w' = w_log w ++ [x] -> shaped x ->
    exists ext, w_log w' = w_log w ++ ext /\ Forall shaped ext).
  { intros x E S. exists [x]. auto. }
  assert (SUC : forall r, succeeded w w' t c ms r ->
    exists ext, w_log w' = w_log w ++ ext /\ Forall shaped ext).
  { intros r. destruct c; cbn [succeeded].
    - intros (_ & _ & E). eapply ONE; [exact E|reflexivity].
    - intros (_ & E & _). auto.
    - intros (_ & g & l & m & _ & _ & _ & _ & NUM & _ & E). eapply ONE; [exact E|].
      unfold shaped. cbn. lia.
    - intros [[_ E] _]. auto.
    - intros [[_ E] _]. auto.
    - intros (_ & _ & sel & _ & _ & E). eapply ONE; [exact E|]. unfold shaped. cbn. lia.
    - intros (_ & _ & sel & _ & E). eapply ONE; [exact E|reflexivity]. }
  destruct (outcome (w_threads w' t)) as [| | | | | | |e]; eauto.
  destruct F as [[_ E] _]. auto.
Qed.

Lemma shaped_continues (w w' : world) t c ms : continues w w' t c ms ->
  exists ext, w_log w' = w_log w ++ ext /\ Forall shaped ext.
Proof.
  intros (tk & _ & _ & [E|(i & names & deps & d & _ & E)]).
  - exists []. rewrite app_nil_r. auto.
  - eexists. split; [exact E|]. repeat constructor.
Qed.

Lemma shaped_event (w : world) ev : inv w ->
  exists ext, w_log (step w ev) = w_log w ++ ext /\ Forall shaped ext.
Proof.
  intros I.
  assert (SAME : forall w' : world, w_log w' = w_log w ->
    exists ext, w_log w' = w_log w ++ ext /\ Forall shaped ext).
  { intros w' E. exists []. rewrite app_nil_r. auto. }
  destruct ev as [t c|t n u|t n|t|p keep]; cbn [StoreModel.step]; auto.
  - destruct (running (w_threads w t)) as [[c' tk]|] eqn:R; [auto|].
    destruct (begin_ok pick process_of w t c I R) as [_ [G|[G|G]]].
    + eapply shaped_continues; eauto.
    + destruct G as (_ & e & _ & [_ G] & _). auto.
    + eapply shaped_finished; eauto.
  - destruct (running (w_threads w t)) as [[c tk]|] eqn:R; [|auto].
    destruct (run_task_ok pick process_of w t c tk n u _ I R eq_refl) as [_ [G|G]].
    + eapply shaped_continues; eauto.
    + eapply shaped_finished; eauto.
  - destruct (running (w_threads w t)) as [[c tk]|] eqn:R; [|auto].
    destruct (fail_task_ok w t c tk n _ I R eq_refl) as [_ [G|(_ & _ & _ & G)]].
    + eapply shaped_continues; eauto.
    + auto.
Qed.

Lemma shaped_reachable (evs : list event) : Forall shaped (w_log (run start evs)).
Proof.
  induction evs as [|ev evs IH] using rev_ind; [constructor|].
  rewrite run_snoc. destruct (shaped_event (run start evs) ev) as (ext & -> & S).
  - apply inv_reachable.
  - now apply Forall_app.
Qed.

Lemma numbers_prefix (a b : list commit) : numbers_inv (a ++ b) -> numbers_inv a.
Proof.
  intros H d. specialize (H d). rewrite filter_app, map_app, count_app, seq_app, map_app in H.
  assert (L : length (map c_number (filter (fun c : commit => String.eqb (c_dir c) d) a))
    = length (map N.of_nat (seq 0 (count a d)))).
  { rewrite !map_length, seq_length. unfold count, changes_of. now rewrite map_length. }
  apply (f_equal (firstn (length (map N.of_nat (seq 0 (count a d)))))) in H.
  rewrite <- L in H at 1. rewrite !firstn_app, !firstn_all, !Nat.sub_diag in H. cbn [firstn] in H.
  now rewrite !app_nil_r in H.
Qed.

(** bags of a directory are never removed *)
Lemma replay_grows (log ext : list commit) d l :
  numbers_inv (log ++ ext) -> Forall shaped (log ++ ext) ->
  replay log d = Some l -> exists more, replay (log ++ ext) d = Some (l ++ more).
Proof.
  revert log l. induction ext as [|c ext IH]; intros log l NI S RP.
  - exists []. rewrite !app_nil_r. exact RP.
  - assert (E : log ++ c :: ext = (log ++ [c]) ++ ext) by now rewrite <- app_assoc.
    rewrite E in *.
    assert (exists more, replay (log ++ [c]) d = Some (l ++ more)) as (more & RP').
    { rewrite replay_snoc. destruct (String.eqb_spec (c_dir c) d) as [D|D].
      2:{ exists []. now rewrite app_nil_r. }
      rewrite RP. assert (C : count log d <> 0).
      { intros C. unfold count in C. unfold replay in RP.
        destruct (changes_of d log); [discriminate RP|discriminate C]. }
      assert (NZ : c_number c <> 0%N).
      { intros Z. pose proof (numbers_prefix (log ++ [c]) ext NI) as NI'.
        apply (first_commit log d c NI' D) in Z. unfold count in C. rewrite Z in C. now apply C. }
      apply Forall_app in S as [S _]. apply Forall_app in S as [_ S].
      inversion S as [|? ? SC _]; subst. unfold shaped in SC.
      destruct (c_change c); try congruence. cbn. eauto. }
    destruct (IH (log ++ [c]) (l ++ more) NI S RP') as (more' & ->).
    exists (more ++ more'). now rewrite app_assoc.
Qed.

(** ** Loading *)

Definition loads (c : call) : Prop :=
  match c with LoadBags _ _ _ | GetMinimalBag _ _ _ => True | _ => False end.

Lemma loading_task (w : world) t c tk : inv w -> running (w_threads w t) = Some (c, tk) ->
  loads c -> tk = Begun \/ exists g todo loaded p, tk = Loading g todo loaded p
    /\ (p = ForLoad \/ p = ForMinimal).
Proof.
  intros I R LC. destruct (i_threads w I t) as [_ TK]. rewrite R in TK.
  destruct tk as [|d k|d k|d k|d m k|d m k|d m v k|d m v k|d m v k
    |d|d|d|d f|g bags k|g bags v jobs k|g todo loaded p|d o|d o|d o];
    cbn [task_ok] in TK; auto;
    lazymatch goal with |- context [Loading g _ _ _ = _] => right | _ => exfalso end.
  1-3: destruct k; cbn in TK; try contradiction;
    [subst c; exact LC|destruct TK as (? & ? & ? & ? & ? & ? & -> & _); exact LC].
  1-4: try (destruct TK as [TK _]); try contradiction;
    destruct k; cbn in TK;
    [destruct TK as [-> _]; exact LC
    |destruct TK as (? & ? & _ & _ & ((_ & _ & -> & _) & _) & _); exact LC
    |destruct TK as [(? & ? & ? & ? & ? & ? & -> & _) _]; exact LC
    |destruct TK as (? & ? & _ & _ & ((_ & _ & (? & ? & ? & ? & ? & ? & -> & _)) & _) & _); exact LC
    |destruct TK as (? & ? & ? & ? & ? & ? & -> & _); exact LC].
  - contradiction.
  - subst c. exact LC.
  - subst c. exact LC.
  - subst c. exact LC.
  - destruct TK as [-> _]. exact LC.
  - destruct TK as [TK _]. destruct k; try contradiction;
      [destruct TK as (_ & _ & -> & _)|destruct TK as (_ & _ & (? & ? & ? & ? & ? & ? & -> & _))]; exact LC.
  - destruct TK as [[TK _] _]. destruct k; try contradiction;
      [destruct TK as (_ & _ & -> & _)|destruct TK as (_ & _ & (? & ? & ? & ? & ? & ? & -> & _))]; exact LC.
  - destruct TK as (i & names & deps & l & LCALL & _). exists g, todo, loaded, p.
    split; [reflexivity|]. destruct p; auto. cbn in LCALL. subst c. destruct LC.
  - destruct o; cbn in TK; destruct TK as (? & ? & ? & ? & ? & ? & -> & _); exact LC.
  - destruct o; cbn in TK; destruct TK as (? & ? & ? & ? & ? & ? & -> & _); exact LC.
  - destruct o; cbn in TK; destruct TK as (? & ? & ? & ? & ? & ? & -> & _); exact LC.
Qed.

Definition same_storage (w w' : world) : Prop :=
  w_files w' = w_files w /\ w_dirs w' = w_dirs w /\ w_log w' = w_log w.

Lemma same_goto (w : world) t tk : same_storage w (goto w t tk).
Proof.
  unfold goto. destruct (running (w_threads w t)) as [[c tk0]|]; unfold same_storage; auto.
Qed.

Lemma same_all_loaded (w : world) t g l p : same_storage w (all_loaded w t g l p).
Proof.
  destruct p; cbn [all_loaded]; [unfold same_storage; auto| |];
    destruct (bags_to_extract _ _ _); try (unfold same_storage; now auto). apply same_goto.
Qed.

(** reading does not write *)
Lemma loading_only_reads (w : world) t c tk n u : inv w ->
  running (w_threads w t) = Some (c, tk) -> loads c ->
  same_storage w (step w (Run t n u)).
Proof.
  intros I R LC. cbn [StoreModel.step]. rewrite R.
  destruct (loading_task w t c tk I R LC) as [ -> |(g & todo & loaded & p & -> & _)];
    [unfold same_storage; auto|]. cbn [run_task].
  destruct todo as [|s todo]; [apply same_all_loaded|].
  destruct (bag_filepath g s); [|unfold same_storage; auto].
  destruct (look _ _) as [[]|]; try (unfold same_storage; now auto).
  destruct (cache_set _ _ _) as [cc b']. destruct todo.
  - apply (same_all_loaded (set_cache w (process_of t) cc)).
  - apply (same_goto (set_cache w (process_of t) cc)).
Qed.

Lemma starting_only_reads (w : world) t c : loads c -> same_storage w (step w (Start t c)).
Proof.
  intros LC. cbn [StoreModel.step].
  destruct (running (w_threads w t)) as [[c' tk]|]; [unfold same_storage; auto|].
  destruct c; try contradiction; unfold begin_, start_loading; cbv zeta;
    (destruct (nth_error _ _); [|unfold same_storage; now auto]);
    (destruct (dependency_closure _ _ _ _); [|unfold same_storage; now auto]);
    destruct (from_cache _ _ _) as [[found [|s todo]]|]; try (unfold same_storage; now auto);
    try apply (same_all_loaded (set_thread w t _)); try apply (same_goto (set_thread w t _)).
Qed.

(** loading ends after as many steps as there are bags to read *)
Lemma loading_ends (u : uuid) t g p : p = ForLoad \/ p = ForMinimal ->
  forall todo loaded c (w : world), inv w -> loads c ->
  running (w_threads w t) = Some (c, Loading g todo loaded p) ->
  running (w_threads (run w (repeat (Run t 0 u) (S (length todo)))) t) = None.
Proof.
  intros P.
  assert (AL : forall (w : world) l, running (w_threads (all_loaded w t g l p) t) = None).
  { intros w l. destruct P as [ -> | -> ]; cbn [all_loaded].
    - unfold return_. now rewrite set_thread_same.
    - destruct (bags_to_extract _ _ _); unfold raise_, return_; now rewrite set_thread_same. }
  assert (STOP : forall k (w : world), running (w_threads w t) = None ->
    running (w_threads (run w (repeat (Run t 0 u) k)) t) = None).
  { induction k as [|k IH]; intros w R; [exact R|]. cbn [repeat]. unfold StoreModel.run.
    cbn [fold_left]. apply IH. cbn [StoreModel.step]. rewrite R. exact R. }
  induction todo as [|s todo IH]; intros loaded c w I LC R.
  - cbn [length repeat]. unfold StoreModel.run. cbn [fold_left]. cbn [StoreModel.step].
    rewrite R. cbn [run_task]. apply AL.
  - cbn [length]. change (repeat (Run t 0 u) (S (S (length todo))))
      with (Run t 0 u :: repeat (Run t 0 u) (S (length todo)) : list event).
    unfold StoreModel.run. cbn [fold_left].
    pose proof (inv_event pick process_of w (Run t 0 u) I) as I'.
    change (running (w_threads (run (step w (Run t 0 u)) (repeat (Run t 0 u) (S (length todo)))) t) = None).
    cbn [StoreModel.step] in *. rewrite R in *. cbn [run_task] in *.
    destruct (bag_filepath g s);
      [|apply STOP; unfold raise_, return_; now rewrite set_thread_same].
    destruct (look _ _) as [[]|];
      try (apply STOP; unfold raise_, return_; now rewrite set_thread_same).
    destruct (cache_set _ _ _) as [cc b']. destruct todo as [|s' todo].
    + apply STOP, AL.
    + eapply IH; [exact I'|exact LC|]. rewrite (running_goto _ _ c (Loading g (s :: s' :: todo) loaded p)); [reflexivity|exact R].
Qed.

Lemma load_ends (w : world) t c u : inv w -> running (w_threads w t) = None -> loads c ->
  exists n, running (w_threads (run w (Start t c :: repeat (Run t 0 u) n)) t) = None.
Proof.
  intros I R LC.
  pose proof (inv_event pick process_of w (Start t c) I) as I'.
  destruct (running (w_threads (step w (Start t c)) t)) as [[c' tk]|] eqn:R'.
  - assert (exists g todo loaded p, tk = Loading g todo loaded p
      /\ (p = ForLoad \/ p = ForMinimal) /\ c' = c) as (g & todo & loaded & p & -> & P & ->).
    { cbn [StoreModel.step] in R'. rewrite R in R'.
      assert (AL : forall (w : world) g l p, p = ForLoad \/ p = ForMinimal ->
        running (w_threads (all_loaded w t g l p) t) = None).
      { intros w1 g l p P. destruct P as [ -> | -> ]; cbn [all_loaded].
        - unfold return_. now rewrite set_thread_same.
        - destruct (bags_to_extract _ _ _); unfold raise_, return_; now rewrite set_thread_same. }
      destruct c; try contradiction; unfold begin_, start_loading in R'; cbv zeta in R';
        (destruct (nth_error _ _); [|unfold raise_, return_ in R'; rewrite set_thread_same in R'; discriminate]);
        (destruct (dependency_closure _ _ _ _); [|unfold raise_, return_ in R'; rewrite set_thread_same in R'; discriminate]);
        (destruct (from_cache _ _ _) as [[found [|s todo]]|];
          [rewrite AL in R' by auto; discriminate
          | unfold goto in R'; rewrite set_thread_same in R'; cbn [running] in R';
            rewrite set_thread_same in R'; cbn [running] in R'; injection R' as <- <-; eauto 10
          | unfold raise_, return_ in R'; rewrite set_thread_same in R'; discriminate]). }
    exists (S (length todo)). eapply loading_ends in R'; eauto.
  - exists 0. exact R'.
Qed.

End Reopen.
