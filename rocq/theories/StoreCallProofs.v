(** What a call has done when it is over, with anything else going on meanwhile *)
From Coq Require Import String.
From Coq Require Import NArith List Bool PeanoNat Lia ZifyN Relations Permutation.
From Verif Require Import StoreModel StoreSpec StoreNameProofs StoreClosureProofs
  StoreFileProofs StoreInvProofs StoreStepProofs StoreRunProofs StoreHistoryProofs.
Import ListNotations.
Local Open Scope nat_scope.

Section Calls.
Context {Bag Custom : Type}.
Notation files := (@files Bag Custom).
Notation to_add := (@to_add Bag Custom).
Notation meta := (@meta Custom).
Notation manager := (@manager Custom).
Notation world := (@world Bag Custom).
Notation call := (@call Bag Custom).
Notation task := (@task Bag Custom).
Notation after := (@after Bag Custom).
Notation result := (@result Bag).
Notation commit := (@commit Bag Custom).
Notation job := (@job Bag).
Notation event := (@event Bag Custom).
Variable pick : list string -> nat.
Variable process_of : nat -> nat.
Notation step := (step pick process_of true).
Notation run := (run pick process_of true).

(** commits of an unfinished call *)
Definition so_far (t : nat) (c : call) (ext : list commit) : Prop :=
  own t ext = []
  \/ exists i names deps d, c = ExtractBags i names deps d
       /\ own t ext = [Commit t d 0 Created].

(** no file of the thread pool has failed *)
Definition unbroken (tk : task) : Prop :=
  match tk with Writing _ _ _ jobs _ => existsb job_failed jobs = false | _ => True end.

Definition status (w0 : world) (t : nat) (c : call) (es : list event) (w : world) : Prop :=
  let ms := managers (w_threads w0 t) in
  exists ext, w_log w = w_log w0 ++ ext
  /\ ((exists tk, running (w_threads w t) = Some (c, tk) /\ managers (w_threads w t) = ms
         /\ so_far t c ext /\ (io_error t es \/ unbroken tk))
   \/ running (w_threads w t) = None
      /\ ((exists e, outcome (w_threads w t) = Failed e
             /\ managers (w_threads w t) = ms /\ so_far t c ext
             /\ (start_cause w0 c ms e
                 \/ e = IoError /\ io_error t es
                 \/ e <> IoError /\ exists w1 ext1 ext2, ext = ext1 ++ ext2
                      /\ w_log w1 = w_log w0 ++ ext1 /\ inv w1 /\ cause w1 c ms e))
          \/ exists wa wb ext1 ext2,
               succeeded wa wb t c ms (outcome (w_threads w t))
               /\ (forall e, outcome (w_threads w t) <> Failed e)
               /\ inv wa /\ inv wb
               /\ keeps (w_files w0) (w_files wa) /\ keeps (w_files wb) (w_files w)
               /\ managers (w_threads wb t) = managers (w_threads w t)
               /\ w_log wa = w_log w0 ++ ext1 /\ w_log w = w_log wb ++ ext2
               /\ so_far t c ext1 /\ own t ext2 = [])).

Lemma own_app t (a b : list commit) : own t (a ++ b) = own t a ++ own t b.
Proof. apply filter_app. Qed.

Lemma own_none t (l : list commit) : Forall (fun c => c_thread c <> t) l -> own t l = [].
Proof.
  induction 1 as [|c l N _ IH]; [reflexivity|]. cbn.
  destruct (Nat.eqb_spec (c_thread c) t); [contradiction|exact IH].
Qed.

Lemma own_one t d n k : own t [Commit t d n k] = [Commit t d n k : commit].
Proof. cbn. now rewrite Nat.eqb_refl. Qed.

Lemma so_far_app t c (a b : list commit) : so_far t c a -> own t b = [] -> so_far t c (a ++ b).
Proof.
  intros [A|(i & names & deps & d & A & B)] O.
  - left. now rewrite own_app, A, O.
  - right. exists i, names, deps, d. now rewrite own_app, B, O.
Qed.

Lemma running_goto (w : world) t c tk tk' : running (w_threads w t) = Some (c, tk) ->
  w_threads (goto w t tk') t = Thread (managers (w_threads w t)) (Some (c, tk')) (outcome (w_threads w t)).
Proof. intros R. unfold goto. rewrite R, set_thread_same. reflexivity. Qed.

(** without a failing operation no call raises an input/output error *)
Definition sound_thread (th : @thread Bag Custom) : Prop :=
  match running th with
  | Some (_, tk) => unbroken tk
  | None => outcome th <> Failed IoError
  end.

Lemma validate_errors seen (bags : list to_add) : validate seen bags <> Some IoError.
Proof.
  revert seen. induction bags as [|b bags IH]; intros seen; cbn [validate]; [discriminate|].
  destruct (has_name _ _); [discriminate|].
  destruct (forallb _ _); [apply IH|discriminate].
Qed.

Lemma sound_goto (w : world) t tk : unbroken tk ->
  running (w_threads w t) <> None -> sound_thread (w_threads (goto w t tk) t).
Proof.
  intros U R. unfold goto. destruct (running (w_threads w t)) as [[c tk0]|] eqn:E; [|congruence].
  rewrite set_thread_same. exact U.
Qed.

Lemma all_loaded_sound (w : world) t g l p : running (w_threads w t) <> None ->
  sound_thread (w_threads (all_loaded w t g l p) t).
Proof.
  intros R. assert (RA : sound_thread (w_threads (raise_ w t KeyError) t)).
  { unfold raise_, return_. rewrite set_thread_same. unfold sound_thread. cbn. congruence. }
  destruct p; cbn [all_loaded].
  - unfold return_. rewrite set_thread_same. unfold sound_thread. cbn. discriminate.
  - destruct (bags_to_extract _ _ _); [|exact RA].
    unfold return_. rewrite set_thread_same. unfold sound_thread. cbn. discriminate.
  - destruct (bags_to_extract _ _ _); [|exact RA]. apply sound_goto; [exact Logic.I|exact R].
Qed.

Lemma run_task_sound (w : world) t c tk n u : inv w ->
  running (w_threads w t) = Some (c, tk) -> unbroken tk ->
  sound_thread (w_threads (run_task process_of true w t tk n u) t).
Proof.
  intros I R U.
  assert (RN : running (w_threads w t) <> None) by congruence.
  assert (ST : sound_thread (w_threads w t)) by (unfold sound_thread; now rewrite R).
  assert (RA : forall (w1 : world) e, e <> IoError -> sound_thread (w_threads (raise_ w1 t e) t)).
  { intros w1 e N. unfold raise_, return_. rewrite set_thread_same. unfold sound_thread. cbn. congruence. }
  assert (CM : forall (w1 : world) d m k, running (w_threads w1 t) <> None ->
    sound_thread (w_threads (committed process_of w1 t d m k) t)).
  { intros w1 d m k R1. destruct k; cbn [committed]; unfold return_manager, return_;
      try (rewrite set_thread_same; unfold sound_thread; cbn; discriminate).
    destruct (validate (names_of m) bags) as [e|] eqn:V.
    - apply RA. intros ->. now apply validate_errors in V.
    - apply sound_goto; [exact Logic.I|exact R1]. }
  destruct tk as [|d k|d k|d k|d m k|d m k|d m v k|d m v k|d m v k
    |d|d|d|d f|g bags k|g bags v jobs k|g todo loaded p|d o|d o|d o];
    cbn [run_task].
  - exact ST.
  - destruct (dir_exists w d); now apply sound_goto.
  - now apply sound_goto.
  - destruct (empty_dir w d); [now apply sound_goto|now apply RA].
  - destruct (file_exists _ _); [now apply RA|now apply sound_goto].
  - destruct (fresh w u); [now apply sound_goto|exact ST].
  - now apply sound_goto.
  - destruct (file_exists _ _); [now apply RA|]. now apply CM.
  - now apply CM.
  - destruct (dir_exists w d); [now apply sound_goto|now apply RA].
  - destruct (empty_dir w d); [now apply RA|now apply sound_goto].
  - destruct (latest_name _ _); [now apply sound_goto|now apply RA].
  - destruct (look _ _) as [[]|]; try now apply RA.
    unfold return_manager. rewrite set_thread_same. unfold sound_thread. cbn. discriminate.
  - destruct (fresh w u); [|exact ST]. apply sound_goto; [|exact RN]. cbn.
    generalize 0. clear. induction bags as [|b bags IH]; intros i; [reflexivity|apply IH].
  - cbn in U. rewrite U. destruct (forallb job_over jobs); [now apply sound_goto|].
    destruct (nth_error jobs n) as [j|] eqn:E; [|exact ST].
    assert (OTHER : forall j', job_failed j' = false ->
      existsb job_failed (replace_nth n j' jobs) = false).
    { intros j' F. destruct (existsb job_failed (replace_nth n j' jobs)) eqn:X; [|reflexivity].
      apply existsb_exists in X as (y & Y1 & Y2). apply replace_nth_In in Y1 as [ -> |(k' & _ & K)]; [congruence|].
      assert (existsb job_failed jobs = true); [|congruence].
      apply existsb_exists. exists y. split; [eapply nth_error_In; eauto|exact Y2]. }
    destruct (i_threads w I t) as [_ TK]. rewrite R in TK. destruct TK as (_ & _ & _ & J).
    rewrite Forall_forall in J. specialize (J j (nth_error_In _ _ E)).
    assert (JF : job_failed j = false).
    { destruct (job_failed j) eqn:X; [|reflexivity].
      assert (existsb job_failed jobs = true); [|congruence].
      apply existsb_exists. exists j. split; [eapply nth_error_In; eauto|exact X]. }
    unfold job_step, job_ok, job_failed in *. destruct (j_phase j) eqn:P;
      (apply sound_goto; [|exact RN]); cbn [unbroken]; apply OTHER; cbn; try reflexivity; try discriminate.
    + unfold file_exists. now rewrite J.
    + now rewrite P.
  - destruct todo as [|s todo]; [now apply all_loaded_sound|].
    destruct (bag_filepath g s); [|now apply RA].
    destruct (look _ _) as [[]|]; try now apply RA.
    destruct (cache_set _ _ _). destruct todo; [now apply all_loaded_sound|now apply sound_goto].
  - destruct (dir_exists w d); now apply sound_goto.
  - now apply sound_goto.
  - destruct (empty_dir w d); [|now apply RA]. destruct o; now apply sound_goto.
Qed.

Lemma one_creation (log : list commit) t t' d k k' a b :
  numbers_inv (log ++ a ++ [Commit t d 0 k] ++ b ++ [Commit t' d 0 k']) -> False.
Proof.
  intros H. specialize (H d).
  assert (ND : NoDup (map N.of_nat (seq 0 (count (log ++ a ++ [Commit t d 0 k] ++ b ++ [Commit t' d 0 k']) d)))).
  { apply FinFun.Injective_map_NoDup; [intros x y; lia|]. apply seq_NoDup. }
  rewrite <- H in ND. clear H. rewrite !filter_app, !map_app in ND.
  cbn [filter c_dir] in ND. rewrite String.eqb_refl in ND. cbn [map c_number app] in ND.
  rewrite app_assoc in ND. apply NoDup_remove_2 in ND. apply ND.
  apply in_app_iff. right. apply in_app_iff. right. now left.
Qed.

Lemma own_In t (l : list commit) c : own t l = [c] -> exists a b, l = a ++ [c] ++ b.
Proof.
  intros H. assert (I : In c l).
  { apply (filter_In (fun c => Nat.eqb (c_thread c) t)). fold (own t l). rewrite H. now left. }
  apply in_split in I as (a & b & ->). exists a, b. reflexivity.
Qed.

Lemma during_app t (a b : list event) : during t (a ++ b) -> during t a /\ during t b.
Proof. intros H. split; intros ev I; apply H; apply in_app_iff; auto. Qed.

Lemma io_error_app t (a b : list event) : io_error t a -> io_error t (a ++ b).
Proof. intros (n & H). exists n. apply in_app_iff. auto. Qed.

Lemma status_step (w0 w : world) t c es ev :
  inv w -> keeps (w_files w0) (w_files w) ->
  during t (es ++ [ev]) -> status w0 t c es w -> status w0 t c (es ++ [ev]) (step w ev).
Proof.
  intros I K D ST. apply during_app in D as [_ D]. specialize (D ev (or_introl eq_refl)).
  pose proof (step_keeps pick process_of w ev I) as K'.
  pose proof (inv_event pick process_of w ev I) as I'.
  destruct ST as (ext & L & ST).
  destruct (by_thread_dec t ev) as [B|B].
  2:{ (* another thread *)
    destruct (step_other pick process_of t w ev B) as (T & e2 & L2 & O2).
    apply own_none in O2.
    exists (ext ++ e2). split; [rewrite L2, L; now rewrite app_assoc|]. rewrite T.
    destruct ST as [(tk & A1 & A2 & A3 & A4)|(R & [(e & A1 & A2 & A3 & A4)|
        (wa & wb & x1 & x2 & A1 & A2 & A3 & A4 & A5 & A6 & A7 & A8 & A9 & A10 & A11)])].
    - left. exists tk. split; [exact A1|]. split; [exact A2|]. split; [now apply so_far_app|].
      destruct A4; [left; now apply io_error_app|now right].
    - right. split; [exact R|]. left. exists e. split; [exact A1|]. split; [exact A2|].
      split; [now apply so_far_app|].
      destruct A4 as [A4|[[A4 A5]|(A4 & w1 & x1 & x2 & -> & A5)]].
      + auto.
      + right. left. split; [exact A4|now apply io_error_app].
      + right. right. split; [exact A4|]. exists w1, x1, (x2 ++ e2). rewrite app_assoc. auto.
    - right. split; [exact R|]. right. exists wa, wb, x1, (x2 ++ e2).
      split; [exact A1|]. split; [exact A2|]. split; [exact A3|]. split; [exact A4|].
      split; [exact A5|]. split; [eapply keeps_trans; eauto|]. split; [exact A7|].
      split; [exact A8|]. split; [rewrite L2, A9; now rewrite app_assoc|]. split; [exact A10|].
      now rewrite own_app, A11, O2. }
  (* the thread itself *)
  destruct ST as [(tk & A1 & A2 & A3 & A4)|(R & ST)].
  2:{ assert (step w ev = w) as ->.
    { destruct ev as [t' c'|t' n u|t' n|t'|p keep]; cbn in B; try contradiction; subst t';
        try congruence; cbn; now rewrite R. }
    exists ext. split; [exact L|]. right. split; [exact R|].
    destruct ST as [(e & B1 & B2 & B3 & B4)|ST]; [left|right; exact ST].
    exists e. split; [exact B1|]. split; [exact B2|]. split; [exact B3|].
    destruct B4 as [B4|[[B4 B5]|B4]]; auto. right. left. split; [exact B4|now apply io_error_app]. }
  assert (SNOC : forall x, w_log (step w ev) = w_log w ++ x ->
    (x = [] \/ exists i names deps d, c = ExtractBags i names deps d /\ x = [Commit t d 0 Created]) ->
    so_far t c (ext ++ x)).
  { intros x LX [ -> |(i & names & deps & d & E1 & -> )]; [rewrite app_nil_r; exact A3|].
    destruct A3 as [A3|(i' & names' & deps' & d' & E2 & A3)].
    - right. exists i, names, deps, d. split; [exact E1|]. now rewrite own_app, A3, own_one.
    - exfalso. rewrite E1 in E2. injection E2 as <- <- <- <-.
      destruct (own_In _ _ _ A3) as (a & b & ->).
      pose proof (i_numbers _ I') as NI. rewrite LX, L in NI.
      rewrite <- !app_assoc in NI. now apply one_creation in NI. }
  assert (CONT : forall (AFTER : forall tk', running (w_threads (step w ev) t) = Some (c, tk') ->
       io_error t (es ++ [ev]) \/ unbroken tk'),
    continues w (step w ev) t c (managers (w_threads w0 t)) ->
    status w0 t c (es ++ [ev]) (step w ev)).
  { intros AFTER (tk' & C1 & C2 & C3).
    assert (exists x, w_log (step w ev) = w_log w ++ x /\
      (x = [] \/ exists i names deps d, c = ExtractBags i names deps d /\ x = [Commit t d 0 Created]))
      as (x & X1 & X2).
    { destruct C3 as [C3|(i & names & deps & d & E & C3)].
      - exists []. rewrite app_nil_r. auto.
      - eexists. split; [exact C3|]. right. exists i, names, deps, d. auto. }
    exists (ext ++ x). split; [rewrite X1, L; now rewrite app_assoc|]. left.
    exists tk'. split; [exact C1|]. split; [exact C2|]. split; [now apply SNOC|]. now apply AFTER. }
  destruct ev as [t' c'|t' n u|t' n|t'|p keep]; cbn in B; try contradiction; subst t';
    try congruence.
  - (* Run *)
    cbn [StoreModel.step] in *. rewrite A1 in *.
    pose proof (run_task_ok pick process_of w t c tk n u _ I A1 A2) as [_ [G|G]].
    + apply CONT; [|exact G]. intros tk' T.
      destruct A4 as [A4|A4]; [left; now apply io_error_app|]. right.
      pose proof (run_task_sound w t c tk n u I A1 A4) as S. unfold sound_thread in S.
      rewrite T in S. exact S.
    + destruct G as [G1 G2].
      assert (IO : io_error t es \/ outcome (w_threads (run_task process_of true w t tk n u) t) <> Failed IoError).
      { destruct A4 as [A4|A4]; [now left|right].
        pose proof (run_task_sound w t c tk n u I A1 A4) as S. unfold sound_thread in S.
        rewrite G1 in S. exact S. }
      destruct (outcome (w_threads (run_task process_of true w t tk n u) t)) as [| | | | | | |e] eqn:OUT.
      8:{ destruct G2 as [[U1 U2] CA].
          exists ext. split; [rewrite U2; exact L|]. right. split; [exact G1|]. left.
          exists e. split; [exact OUT|]. split; [exact U1|]. split; [exact A3|].
          destruct IO as [IO|IO].
          - destruct e; try (right; right; split; [discriminate|];
              exists w, ext, []; rewrite app_nil_r; auto; fail).
            right. left. split; [reflexivity|now apply io_error_app].
          - right. right. split; [congruence|]. exists w, ext, []. rewrite app_nil_r. auto. }
      all: match type of G2 with succeeded _ ?wb _ _ _ _ =>
        assert (exists x, w_log wb = w_log w ++ x) as (x & X)
          by (exact (step_log pick process_of w (Run t n u)) ||
              (destruct (local_run_task process_of t w tk n u) as [_ (x & X & _)]; eauto));
        exists (ext ++ x); (split; [rewrite X, L; now rewrite app_assoc|]); right;
        (split; [exact G1|]); right; exists w, wb, ext, []; rewrite OUT, app_nil_r;
        (split; [exact G2|]); (split; [discriminate|]); (split; [exact I|]); (split; [exact I'|]);
        (split; [exact K|]); (split; [apply keeps_refl|]);
        (split; [reflexivity|]); (split; [exact L|]); (split; [reflexivity|]); (split; [exact A3|reflexivity])
      end.
  - (* Fail *)
    cbn [StoreModel.step] in *. rewrite A1 in *.
    assert (IO : io_error t (es ++ [Fail t n])).
    { exists n. apply in_app_iff. right. now left. }
    destruct (fail_task_ok w t c tk n _ I A1 A2) as [_ [G|(G1 & G2 & U1 & U2)]].
    + apply CONT; auto.
    + exists ext. split; [rewrite U2; exact L|]. right. split; [exact G1|]. left.
      exists IoError. auto 10.
Qed.

Lemma begin_sound (w : world) t c : sound_thread (w_threads (begin_ pick process_of w t c) t).
Proof.
  unfold begin_. cbv zeta. set (w1 := set_thread w t _).
  assert (RN : running (w_threads w1 t) <> None)
    by (subst w1; rewrite set_thread_same; discriminate).
  assert (RA : forall (w1 : world) e, e <> IoError -> sound_thread (w_threads (raise_ w1 t e) t)).
  { intros w2 e N. unfold raise_, return_. rewrite set_thread_same. unfold sound_thread. cbn. congruence. }
  assert (DC : forall (m : meta) names deps, dependency_closure pick m names deps <> inr IoError).
  { intros m names deps. unfold dependency_closure. repeat match goal with |- context [match ?x with _ => _ end] => destruct x end; discriminate. }
  assert (SL : forall g names deps p,
    sound_thread (w_threads (start_loading pick process_of w1 t g names deps p) t)).
  { intros g names deps p. unfold start_loading. specialize (DC (g_meta g) names deps).
    destruct (dependency_closure pick (g_meta g) names deps) as [l|e]; [|apply RA; congruence].
    destruct (from_cache _ _ _) as [[found [|s todo]]|]; [|now apply sound_goto|now apply RA].
    now apply all_loaded_sound. }
  destruct c as [d|d|i bags|i names deps|i names deps|i names deps d|i names deps d];
    try (now apply sound_goto); destruct (nth_error _ _) as [g|]; try (now apply RA); try apply SL.
  - destruct (validate _ bags) as [e|] eqn:V; [|now apply sound_goto].
    apply RA. intros ->. now apply validate_errors in V.
  - specialize (DC (g_meta g) names deps).
    destruct (dependency_closure pick (g_meta g) names deps) as [l|e]; [|apply RA; congruence].
    now apply sound_goto.
Qed.

Lemma status_start (w : world) t c : inv w -> running (w_threads w t) = None ->
  status w t c [] (step w (Start t c)).
Proof.
  intros I R. pose proof (step_keeps pick process_of w (Start t c) I) as K.
  cbn [StoreModel.step] in *. rewrite R in *.
  pose proof (begin_ok pick process_of w t c I R) as [I' [G|[G|G]]].
  - destruct G as (tk & G1 & G2 & G3).
    assert (U : unbroken tk).
    { pose proof (begin_sound w t c) as S. unfold sound_thread in S. now rewrite G1 in S. }
    destruct G3 as [G3|(i & names & deps & d & E & G3)].
    + exists []. rewrite app_nil_r. split; [exact G3|]. left. exists tk. split; [exact G1|].
      split; [exact G2|]. split; [now left|now right].
    + eexists. split; [exact G3|]. left. exists tk. split; [exact G1|]. split; [exact G2|].
      split; [right; exists i, names, deps, d; now rewrite own_one|now right].
  - destruct G as (G1 & e & G2 & [G3 G4] & G5). exists []. rewrite app_nil_r.
    split; [exact G4|]. right. split; [exact G1|]. left. exists e. split; [exact G2|].
    split; [exact G3|]. split; [now left|now left].
  - destruct G as [G1 G2].
    assert (exists x, w_log (begin_ pick process_of w t c) = w_log w ++ x) as (x & X).
    { destruct (local_begin pick process_of t w c) as [_ (x & X & _)]; eauto. }
    destruct (outcome (w_threads (begin_ pick process_of w t c) t)) as [| | | | | | |e] eqn:OUT.
    8:{ destruct G2 as [[U1 U2] CA]. exists []. rewrite app_nil_r. split; [exact U2|].
        right. split; [exact G1|]. left. exists e. split; [exact OUT|]. split; [exact U1|].
        split; [now left|]. right. right. split.
        - pose proof (begin_sound w t c) as S. unfold sound_thread in S. rewrite G1 in S. congruence.
        - exists w, [], []. split; [reflexivity|]. rewrite app_nil_r. auto. }
    all: exists x; (split; [exact X|]); right; (split; [exact G1|]); right;
      exists w, (begin_ pick process_of w t c), [], [];
      rewrite OUT, !app_nil_r;
      (split; [exact G2|]); (split; [discriminate|]); (split; [exact I|]); (split; [exact I'|]);
      (split; [apply keeps_refl|]); (split; [apply keeps_refl|]);
      (split; [reflexivity|]); (split; [reflexivity|]); (split; [reflexivity|]); (split; [now left|reflexivity]).
Qed.

Theorem call_status (w : world) t c es : inv w -> running (w_threads w t) = None ->
  during t es -> status w t c es (run (step w (Start t c)) es).
Proof.
  intros I R D. pose proof (inv_event pick process_of w (Start t c) I) as I1.
  induction es as [|ev es IH] using rev_ind.
  - now apply status_start.
  - rewrite run_snoc. apply status_step; [now apply inv_run| |exact D|].
    + eapply keeps_trans; [apply (step_keeps pick process_of w (Start t c) I)|]. now apply run_keeps.
    + apply IH. now apply during_app in D.
Qed.

End Calls.
