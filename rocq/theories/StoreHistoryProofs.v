(** The invariant holds after every history, and what calls have done when they
    are over, whatever the other threads and processes did in between *)
From Coq Require Import String.
From Coq Require Import NArith List Bool PeanoNat Lia ZifyN Relations Permutation.
From Verif Require Import StoreModel StoreSpec StoreNameProofs StoreClosureProofs
  StoreFileProofs StoreInvProofs StoreStepProofs StoreRunProofs.
Import ListNotations.
Local Open Scope nat_scope.

Section History.
Context {Bag Custom : Type}.
Notation files := (@files Bag Custom).
Notation to_add := (@to_add Bag Custom).
Notation meta := (@meta Custom).
Notation manager := (@manager Custom).
Notation world := (@world Bag Custom).
Notation call := (@call Bag Custom).
Notation task := (@task Bag Custom).
Notation after := (@after Bag Custom).
Notation result := (@result Bag).
Notation commit := (@commit Bag Custom).
Notation job := (@job Bag).
Notation event := (@event Bag Custom).
Variable pick : list string -> nat.
Variable process_of : nat -> nat.
Notation step := (step pick process_of true).
Notation run := (run pick process_of true).

(** ** What a step does not touch *)

Definition local (t : nat) (w w' : world) : Prop :=
  (forall t', t' <> t -> w_threads w' t' = w_threads w t')
  /\ exists ext, w_log w' = w_log w ++ ext /\ Forall (fun c => c_thread c = t) ext.

Lemma local_refl t w : local t w w.
Proof. split; [auto|]. exists []. rewrite app_nil_r. auto. Qed.

Lemma local_trans t w w1 w2 : local t w w1 -> local t w1 w2 -> local t w w2.
Proof.
  intros [A (e & B & C)] [A' (e' & B' & C')]. split.
  - intros t' N. rewrite A', A; auto.
  - exists (e ++ e'). rewrite B', B, app_assoc. split; [reflexivity|]. now apply Forall_app.
Qed.

Lemma local_set_thread t (w : world) th : local t w (set_thread w t th).
Proof.
  split; [intros t' N; now apply set_thread_other|]. exists []. rewrite app_nil_r. auto.
Qed.
Lemma local_same t (w w' : world) : w_threads w' = w_threads w -> w_log w' = w_log w ->
  local t w w'.
Proof. intros A B. split; [now rewrite A|]. exists []. rewrite app_nil_r. auto. Qed.
Lemma local_log t (w : world) d n k : local t w (log_commit w (Commit t d n k)).
Proof. split; [reflexivity|]. eexists. split; [reflexivity|]. auto. Qed.
Lemma local_goto t (w : world) tk : local t w (goto w t tk).
Proof.
  unfold goto. destruct (running (w_threads w t)) as [[c tk0]|];
    [apply local_set_thread|apply local_refl].
Qed.

Ltac locally :=
  repeat match goal with
  | |- local _ _ (goto ?w _ _) => apply (local_trans _ _ w); [|apply local_goto]
  | |- local _ _ (set_thread ?w _ _) => apply (local_trans _ _ w); [|apply local_set_thread]
  | |- local _ _ (set_files ?w _) => apply (local_trans _ _ w); [|now apply local_same]
  | |- local _ _ (add_dir ?w _) => apply (local_trans _ _ w); [|now apply local_same]
  | |- local _ _ (use_uuid ?w _) => apply (local_trans _ _ w); [|now apply local_same]
  | |- local _ _ (set_cache ?w _ _) => apply (local_trans _ _ w); [|now apply local_same]
  | |- local _ _ (log_commit ?w _) => apply (local_trans _ _ w); [|apply local_log]
  | |- local _ ?w ?w => apply local_refl
  | |- local _ _ (match ?x with _ => _ end) => destruct x eqn:?
  | |- local _ _ _ => progress unfold raise_, return_, return_manager, output_ready, all_loaded
  end.

Lemma local_committed t (w : world) d m k : local t w (committed process_of w t d m k).
Proof. destruct k; cbn [committed]; locally. Qed.

Lemma local_run_task t (w : world) tk n u : local t w (run_task process_of true w t tk n u).
Proof.
  destruct tk; cbn [run_task]; locally.
  - eapply local_trans; [|apply local_committed]. locally.
  - eapply local_trans; [|apply local_committed]. locally.
  - unfold job_step in *. destruct (j_phase j);
      apply pair_equal_spec in Heqp as [<- <-]; locally.
Qed.

Lemma local_fail_task t (w : world) tk n : local t w (fail_task w t tk n).
Proof. destruct tk; cbn [fail_task]; locally. Qed.

Lemma local_begin t (w : world) c : local t w (begin_ pick process_of w t c).
Proof. destruct c; unfold begin_, start_loading; locally. Qed.

(** the thread of an event *)
Definition by_thread (t : nat) (ev : event) : Prop :=
  match ev with
  | Start t' _ | Run t' _ _ | Fail t' _ | Stop t' => t' = t
  | Evict _ _ => False
  end.

Lemma step_local t (w : world) ev : (forall t', by_thread t' ev -> t' = t) ->
  local t w (step w ev).
Proof.
  intros H. destruct ev as [t' c|t' n u|t' n|t'|p keep]; cbn [StoreModel.step];
    try (rewrite (H t' eq_refl)).
  - destruct (running (w_threads w t)); [apply local_refl|apply local_begin].
  - destruct (running (w_threads w t)) as [[c tk]|]; [apply local_run_task|apply local_refl].
  - destruct (running (w_threads w t)) as [[c tk]|]; [apply local_fail_task|apply local_refl].
  - apply local_set_thread.
  - now apply local_same.
Qed.

Lemma by_thread_dec t (ev : event) :
  by_thread t ev \/ forall t', by_thread t' ev -> t' <> t.
Proof.
  destruct ev as [t' c|t' n u|t' n|t'|p keep]; cbn;
    try (destruct (Nat.eq_dec t' t) as [ -> |D]; [auto|right; intros x <-; exact D]).
  right. intros x [].
Qed.

(** an event of another thread *)
Lemma step_other t (w : world) ev : (forall t', by_thread t' ev -> t' <> t) ->
  w_threads (step w ev) t = w_threads w t
  /\ exists ext, w_log (step w ev) = w_log w ++ ext /\ Forall (fun c => c_thread c <> t) ext.
Proof.
  intros H.
  assert (exists t', t' <> t /\ forall x, by_thread x ev -> x = t') as (t' & D & E).
  { destruct ev as [t' c|t' n u|t' n|t'|p keep];
      try (exists t'; split; [apply H; reflexivity|cbn; auto]).
    exists (S t). split; [lia|intros x []]. }
  destruct (step_local t' w ev E) as [A (ext & B & C)].
  split; [apply A; auto|]. exists ext. split; [exact B|].
  eapply Forall_impl; [|exact C]. cbn. intros c ->. exact D.
Qed.

(** ** Files are never overwritten *)

Lemma files_goto (w : world) t tk : w_files (goto w t tk) = w_files w.
Proof. unfold goto. destruct (running (w_threads w t)) as [[c tk0]|]; reflexivity. Qed.

Lemma files_committed (w : world) t d m k : w_files (committed process_of w t d m k) = w_files w.
Proof.
  destruct k; cbn [committed]; try reflexivity.
  destruct (validate (names_of m) bags); [reflexivity|]. rewrite files_goto. reflexivity.
Qed.

Lemma files_all_loaded (w : world) t g l p : w_files (all_loaded w t g l p) = w_files w.
Proof.
  destruct p; cbn [all_loaded]; [reflexivity| |];
    destruct (bags_to_extract _ _ _); try reflexivity. apply files_goto.
Qed.

Lemma files_begin (w : world) t c : w_files (begin_ pick process_of w t c) = w_files w.
Proof.
  assert (L : forall (w0 : world) g names deps p, w_files (start_loading pick process_of w0 t g names deps p) = w_files w0).
  { intros w0 g names deps p. unfold start_loading.
    destruct (dependency_closure _ _ _ _) as [l|e]; [|reflexivity].
    destruct (from_cache _ _ _) as [[found [|s todo]]|]; [|rewrite files_goto|]; try reflexivity.
    now rewrite files_all_loaded. }
  destruct c; unfold begin_; cbv zeta; try (rewrite files_goto; reflexivity);
    destruct (nth_error _ _) as [g|]; try reflexivity.
  - destruct (validate _ _); [reflexivity|]. now rewrite files_goto.
  - now rewrite L.
  - now rewrite L.
  - now rewrite L.
  - destruct (dependency_closure _ _ _ _); [|reflexivity]. now rewrite files_goto.
Qed.

Lemma run_task_keeps (w : world) t c tk n u : inv w -> running (w_threads w t) = Some (c, tk) ->
  keeps (w_files w) (w_files (run_task process_of true w t tk n u)).
Proof.
  intros I R. destruct (i_threads w I t) as [_ TK]. rewrite R in TK.
  destruct tk; cbn [run_task task_ok] in *;
    try (match goal with |- context [if ?b then _ else _] => destruct b eqn:? end);
    try (rewrite files_goto); try apply keeps_refl.
  - apply keeps_put; [discriminate|]. left. eapply not_used_absent; [exact I|reflexivity|].
    now apply fresh_spec.
  - apply keeps_put; [discriminate|]. right. apply TK.
  - rewrite files_committed. cbn [set_files w_files]. apply (keeps_move _ _ _ _ m); [apply TK|].
    now apply file_exists_false.
  - contradiction.
  - destruct (latest_name _ _); [rewrite files_goto|]; apply keeps_refl.
  - destruct (look _ _) as [[]|]; apply keeps_refl.
  - destruct (existsb _ _); [|rewrite files_goto]; apply keeps_refl.
  - destruct (nth_error jobs n) as [j|] eqn:E; [|apply keeps_refl].
    destruct TK as (A & F & B & J).
    destruct (jobs_nth process_of jobs u0 bags n j F B E) as (JF & _).
    rewrite Forall_forall in J. specialize (J j (nth_error_In _ _ E)).
    unfold job_step, job_ok in *. destruct (j_phase j); rewrite files_goto; try apply keeps_refl;
      apply keeps_put; auto; rewrite JF; discriminate.
  - destruct todo as [|s todo]; [rewrite files_all_loaded; apply keeps_refl|].
    destruct (bag_filepath g s); [|apply keeps_refl].
    destruct (look _ _) as [[]|]; try apply keeps_refl.
    destruct (cache_set _ _ _). destruct todo; [rewrite files_all_loaded|rewrite files_goto];
      apply keeps_refl.
  - unfold output_ready. destruct o; rewrite files_goto; apply keeps_refl.
Qed.

Lemma files_fail_task (w : world) t tk n : w_files (fail_task w t tk n) = w_files w.
Proof.
  destruct tk; cbn [fail_task]; try reflexivity.
  destruct (nth_error jobs n); [|reflexivity]. destruct (job_over j); [reflexivity|].
  apply files_goto.
Qed.

Lemma step_keeps (w : world) ev : inv w -> keeps (w_files w) (w_files (step w ev)).
Proof.
  intros I. destruct ev as [t c|t n u|t n|t|p keep]; cbn [StoreModel.step]; try apply keeps_refl.
  - destruct (running (w_threads w t)) as [[c' tk]|]; [apply keeps_refl|].
    rewrite files_begin. apply keeps_refl.
  - destruct (running (w_threads w t)) as [[c tk]|] eqn:R; [|apply keeps_refl].
    eapply run_task_keeps; eauto.
  - destruct (running (w_threads w t)) as [[c tk]|]; [|apply keeps_refl].
    rewrite files_fail_task. apply keeps_refl.
Qed.

Lemma keeps_trans (a b c : files) : keeps a b -> keeps b c -> keeps a c.
Proof. intros [A B] [C D]. split; intros; eauto. Qed.

(** ** The invariant *)

Lemma inv_start : inv (@start Bag Custom).
Proof.
  constructor.
  - intros d n. cbn. destruct n; reflexivity.
  - intros d. reflexivity.
  - intros d f u L. cbn in L. congruence.
  - intros p k q b [].
  - intros t. split; [intros g []|exact Logic.I].
  - intros t t' u (c & tk & R & _). discriminate.
  - intros t u (c & tk & R & _). discriminate.
Qed.

Definition failing (w w' : world) (t : nat) (c : call) (ms : list manager) : Prop :=
  running (w_threads w' t) = None /\ outcome (w_threads w' t) = Failed IoError
  /\ unchanged w w' t ms.

Lemma fail_task_ok (w : world) t c tk n ms : inv w ->
  running (w_threads w t) = Some (c, tk) -> managers (w_threads w t) = ms ->
  inv (fail_task w t tk n)
  /\ (continues w (fail_task w t tk n) t c ms \/ failing w (fail_task w t tk n) t c ms).
Proof.
  intros I R M.
  assert (RA : inv (raise_ w t IoError)
    /\ (continues w (raise_ w t IoError) t c ms \/ failing w (raise_ w t IoError) t c ms)).
  { split; [now apply inv_raise|]. right. unfold failing, unchanged, raise_, return_.
    rewrite set_thread_same. cbn. auto. }
  destruct tk; cbn [fail_task]; try exact RA.
  assert (ST : inv w /\ (continues w w t c ms \/ failing w w t c ms)).
  { split; [exact I|]. left. eexists. eauto. }
  destruct (nth_error jobs n) as [j|] eqn:E; [|exact ST].
  destruct (job_over j); [exact ST|].
  destruct (i_threads w I t) as [_ TK]. rewrite R in TK. cbn [task_ok] in TK.
  destruct TK as (A & F & B & J).
  assert (G : good w (goto w t (Writing g bags u
    (replace_nth n (Job (j_file j) (j_bag j) Broken) jobs) k)) t c ms).
  { eapply good_goto; [exact I|exact R|exact M| |right; reflexivity].
    cbn [task_ok]. rewrite <- M. split; [exact A|].
    split; [rewrite (replace_nth_map j_file jobs n (Job (j_file j) (j_bag j) Broken) j E eq_refl); exact F|].
    split; [rewrite (replace_nth_map j_bag jobs n (Job (j_file j) (j_bag j) Broken) j E eq_refl); exact B|].
    apply Forall_forall. intros x X. apply replace_nth_In in X as [ -> |(k' & _ & K2)].
    - unfold job_ok. exact Logic.I.
    - rewrite Forall_forall in J. apply J. eapply nth_error_In; eauto. }
  destruct G as [G1 [G2|G2]]; [auto|].
  exfalso. destruct G2 as [G2 _]. unfold goto in G2. rewrite R, set_thread_same in G2. discriminate.
Qed.

Lemma inv_stop (w : world) t : inv w -> inv (set_thread w t (Thread [] None Nothing)).
Proof.
  intros I. apply inv_set_thread; [exact I| |].
  - split; [intros g []|exact Logic.I].
  - cbn. discriminate.
Qed.

Lemma inv_evict (w : world) p keep : inv w ->
  inv (set_cache w p (filter (fun x => keep (fst x)) (w_caches w p))).
Proof.
  intros I. apply inv_set_cache; [exact I|]. intros k q b H. apply filter_In in H as [H _].
  eapply (i_cache w I); eauto.
Qed.

Lemma inv_event (w : world) ev : inv w -> inv (step w ev).
Proof.
  intros I. destruct ev as [t c|t n u|t n|t|p keep]; cbn [StoreModel.step].
  - destruct (running (w_threads w t)) as [[c' tk]|] eqn:R; [exact I|].
    now apply (begin_ok pick process_of w t c I R).
  - destruct (running (w_threads w t)) as [[c tk]|] eqn:R; [|exact I].
    now apply (run_task_ok pick process_of w t c tk n u _ I R eq_refl).
  - destruct (running (w_threads w t)) as [[c tk]|] eqn:R; [|exact I].
    now apply (fail_task_ok w t c tk n _ I R eq_refl).
  - now apply inv_stop.
  - now apply inv_evict.
Qed.

Lemma inv_run (evs : list event) : forall w : world, inv w -> inv (run w evs).
Proof. induction evs as [|ev evs IH]; intros w I; [exact I|]. cbn. apply IH. now apply inv_event. Qed.

Lemma inv_reachable (evs : list event) : inv (run start evs).
Proof. apply inv_run, inv_start. Qed.

Lemma run_snoc (w : world) evs ev : run w (evs ++ [ev]) = step (run w evs) ev.
Proof. unfold StoreModel.run. now rewrite fold_left_app. Qed.

Lemma run_keeps (evs : list event) : forall w : world, inv w -> keeps (w_files w) (w_files (run w evs)).
Proof.
  induction evs as [|ev evs IH]; intros w I; [apply keeps_refl|]. cbn.
  eapply keeps_trans; [now apply step_keeps|]. apply IH. now apply inv_event.
Qed.

Lemma step_log (w : world) ev : exists ext, w_log (step w ev) = w_log w ++ ext.
Proof.
  destruct ev as [t c|t n u|t n|t|p keep].
  5: exists []; cbn; now rewrite app_nil_r.
  all: edestruct (step_local t w) as [_ (ext & E & _)]; [|exists ext; exact E]; cbn; auto.
Qed.

Lemma run_log (evs : list event) : forall w : world, exists ext, w_log (run w evs) = w_log w ++ ext.
Proof.
  induction evs as [|ev evs IH]; intros w; [exists []; cbn; now rewrite app_nil_r|]. cbn.
  destruct (step_log w ev) as (e & E). destruct (IH (step w ev)) as (e' & E').
  exists (e ++ e'). rewrite app_assoc, <- E. exact E'.
Qed.

(** ** The current bags of a directory *)

Lemma reopened_latest (w : world) d : inv w -> few_updates w ->
  match count (w_log w) d with
  | O => reopened (w_files w) d = None
  | S n => exists m l, reopened (w_files w) d = Some m
      /\ m_number m = N.of_nat n /\ stored (w_files w) d m = Some l
      /\ items_ok l /\ replay (w_log w) d = Some l
  end.
Proof.
  intros I FU. unfold reopened.
  destruct (count (w_log w) d) as [|n] eqn:C.
  - destruct (latest_name (w_files w) d) as [f|] eqn:L; [|reflexivity].
    destruct (latest_name_some _ _ _ L) as (k & -> & _ & P & _).
    destruct (look (w_files w) (d, MetaFile k)) as [x|] eqn:E; [|congruence].
    destruct (meta_manager w d k x I E) as (m & l & _ & _ & _ & LT & _). lia.
  - assert (LAST : exists m l, look (w_files w) (d, MetaFile (N.of_nat n)) = Some (MetaContent m)
      /\ m_number m = N.of_nat n /\ stored (w_files w) d m = Some l
      /\ items_ok l /\ replay (w_log w) d = Some l).
    { pose proof (i_meta w I d (N.of_nat n)) as M. rewrite C in M.
      replace (N.of_nat n <? N.of_nat (S n))%N with true in M by lia.
      destruct M as (m & l & A & B & S & OK & RP). exists m, l. split; [exact A|].
      split; [exact B|]. split; [exact S|]. split; [exact OK|]. rewrite <- RP. symmetry.
      apply replay_first_all. lia. }
    destruct LAST as (m & l & A & B & S & OK & RP).
    assert (SMALL : (N.of_nat n < capacity)%N).
    { destruct (commit_in_log w d (N.of_nat n) I) as (c & X & _ & Y); [lia|].
      specialize (FU c X). rewrite Y in FU. exact FU. }
    destruct (latest_name (w_files w) d) as [f|] eqn:L.
    + destruct (latest_name_some _ _ _ L) as (k & -> & KC & P & MAX).
      destruct (look (w_files w) (d, MetaFile k)) as [x|] eqn:E; [|congruence].
      destruct (meta_manager w d k x I E) as (m' & l' & _ & _ & _ & LT & _).
      assert (k = N.of_nat n) as ->.
      { specialize (MAX (N.of_nat n) SMALL). rewrite A in MAX.
        assert (N.of_nat n <= k)%N by (apply MAX; discriminate). lia. }
      rewrite A in E. injection E as <-. exists m, l. auto.
    + exfalso. pose proof (latest_name_none _ _ L (N.of_nat n) SMALL) as Z. congruence.
Qed.

Lemma replay_none (w : world) d : count (w_log w) d = 0 -> replay (w_log w) d = None.
Proof.
  unfold count, replay, changes_of. intros C.
  destruct (filter _ (w_log w)); [reflexivity|discriminate].
Qed.

Lemma visible_replay (w : world) d : inv w -> few_updates w ->
  visible w d = replay (w_log w) d.
Proof.
  intros I FU. pose proof (reopened_latest w d I FU) as H. unfold visible.
  destruct (count (w_log w) d) eqn:C.
  - rewrite H. symmetry. now apply replay_none.
  - destruct H as (m & l & -> & _ & -> & _ & ->). reflexivity.
Qed.

End History.
