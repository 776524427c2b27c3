(** Every step preserves the invariant (continued): the file operations *)
From Coq Require Import String.
From Coq Require Import NArith List Bool PeanoNat Lia ZifyN Relations Permutation.
From Verif Require Import StoreModel StoreSpec StoreNameProofs StoreClosureProofs
  StoreFileProofs StoreInvProofs StoreStepProofs.
Import ListNotations.
Local Open Scope nat_scope.

Section Runs.
Context {Bag Custom : Type}.
Notation files := (@files Bag Custom).
Notation to_add := (@to_add Bag Custom).
Notation meta := (@meta Custom).
Notation manager := (@manager Custom).
Notation world := (@world Bag Custom).
Notation call := (@call Bag Custom).
Notation task := (@task Bag Custom).
Notation after := (@after Bag Custom).
Notation result := (@result Bag).
Notation commit := (@commit Bag Custom).
Notation job := (@job Bag).
Variable pick : list string -> nat.
Variable process_of : nat -> nat.

Definition change_by (k : after) (l : list to_add) : change :=
  match k with
  | AfterNew | AfterExtractNew _ => Created
  | AfterAdd _ _ bags | AfterExtractAdd bags => BagsAdded bags
  | AfterBranch => BranchOf l
  end.

Lemma count_zero (w : world) d : inv w ->
  look (w_files w) (d, MetaFile 0) = None -> count (w_log w) d = 0.
Proof.
  intros I L. pose proof (i_meta w I d 0%N) as M.
  destruct (0 <? N.of_nat (count (w_log w) d))%N eqn:C; [|lia].
  destruct M as (m & l & A & _). congruence.
Qed.

Lemma stored_initial (fs : files) d : stored fs d (@initial_meta Custom) = Some [].
Proof. reflexivity. Qed.

Lemma manager_latest (w : world) g l : inv w -> manager_bags (w_files w) g l ->
  look (w_files w) (g_dir g, MetaFile (m_number (g_meta g) + 1)) = None ->
  (m_number (g_meta g) + 1)%N = N.of_nat (count (w_log w) (g_dir g))
  /\ replay (w_log w) (g_dir g) = Some l.
Proof.
  intros I MB L. destruct MB as (A & B & C).
  destruct (meta_manager w _ _ _ I A) as (m & l' & E & NUM & MB' & LT & RP).
  injection E as <-.
  assert (l' = l) as ->.
  { destruct MB' as (_ & S & _). cbn in S. congruence. }
  pose proof (i_meta w I (g_dir g) (m_number (g_meta g) + 1)%N) as M.
  destruct (m_number (g_meta g) + 1 <? N.of_nat (count (w_log w) (g_dir g)))%N eqn:C2.
  - destruct M as (m' & l2 & X & _). congruence.
  - assert (E : (m_number (g_meta g) + 1)%N = N.of_nat (count (w_log w) (g_dir g))) by lia.
    split; [exact E|]. rewrite <- RP. symmetry. apply replay_first_all. lia.
Qed.

Lemma extract_items (fs : files) c ms bags d : extract_ok fs c ms bags d -> items_ok bags.
Proof.
  intros (i & names & deps & g & l & sel & _ & _ & MB & S & ->).
  pose proof (selection_ok l sel names deps (proj2 (proj2 MB)) (proj2 S)) as [N D].
  split.
  - unfold unique_names in *. rewrite map_map. exact N.
  - intros before x after E s IN.
    apply map_eq_app in E as (b1 & b2 & -> & <- & E2).
    destruct b2 as [|y b2]; [discriminate|]. injection E2 as <- E2.
    rewrite map_map. exact (D b1 y b2 eq_refl s IN).
Qed.

Lemma commit_facts (w : world) c ms d m k : inv w ->
  commit_ok (w_files w) c ms d m k ->
  look (w_files w) (d, MetaFile (m_number m)) = None ->
  exists l, m_number m = N.of_nat (count (w_log w) d)
    /\ stored (w_files w) d m = Some l /\ items_ok l
    /\ apply_change (replay (w_log w) d) (change_by k l) = Some l.
Proof.
  intros I C L. destruct k as [|i g' bags|bags|bags|]; cbn [commit_ok change_by] in *.
  - destruct C as [_ ->]. exists []. apply count_zero in L; [|exact I]. cbn.
    rewrite L. split; [reflexivity|]. split; [reflexivity|]. split; [apply items_ok_nil|reflexivity].
  - destruct C as (g & u & <- & -> & (_ & l & MB & OK) & S). cbn in L.
    destruct (manager_latest w g l I MB L) as [E1 E2].
    exists (l ++ bags). split; [exact E1|]. split.
    { apply stored_entries_app; [apply MB|exact S]. }
    split; [exact OK|]. cbn. now rewrite E2.
  - destruct C as [_ ->]. exists []. apply count_zero in L; [|exact I]. cbn.
    rewrite L. split; [reflexivity|]. split; [reflexivity|]. split; [apply items_ok_nil|reflexivity].
  - destruct C as (g & u & <- & -> & (_ & l & MB & OK) & S). cbn in L.
    destruct (manager_latest w g l I MB L) as [E1 E2].
    exists (l ++ bags). split; [exact E1|]. split.
    { apply stored_entries_app; [apply MB|exact S]. }
    split; [exact OK|]. cbn. now rewrite E2.
  - destruct C as (i & names & deps & g & l & sel & _ & _ & MB & S & N & ST).
    exists sel. rewrite N in *. apply count_zero in L; [|exact I]. rewrite L.
    split; [reflexivity|]. split; [exact ST|]. split; [|reflexivity].
    eapply selection_ok; [|exact (proj2 S)]. apply MB.
Qed.

Lemma cache_set_In (cc : @cache Bag) k b x :
  In x (fst (cache_set cc k b)) -> x = (k, b) \/ In x cc.
Proof.
  unfold cache_set. destruct (cache_get cc k); cbn; [auto|]. intros [ <- |H]; auto.
Qed.

Lemma cache_new_ok (fs : files) d u : forall bags i cc,
  stored_entries fs d (new_entries u i bags) = Some bags ->
  (forall k q b, In ((k, q), b) cc -> look fs q = Some (BagContent b)) ->
  forall k q b, In ((k, q), b) (cache_new (Custom := Custom) cc d (new_entries u i bags) bags) ->
    look fs q = Some (BagContent b).
Proof.
  induction bags as [|x bags IH]; intros i cc ST H k q b; [cbn; apply H|].
  cbn [new_entries cache_new e_file] in *. cbn [stored_entries] in ST.
  unfold stored_entry, entry_path in ST. cbn in ST.
  destruct (look fs (d, BagFile u i)) as [[b'|m|]|] eqn:L; try discriminate.
  destruct (stored_entries fs d (new_entries u (S i) bags)) as [l|] eqn:E; [|discriminate].
  injection ST as S1 S2. subst l.
  apply (IH (S i)); [exact E|].
  intros k' q' b2 IN. apply cache_set_In in IN as [X|X]; [|eapply H; eauto].
  injection X as _ -> ->. rewrite L, <- S1. reflexivity.
Qed.

Lemma In_replace_nth {A} (l : list A) : forall i x y, In y (replace_nth i x l) -> y = x \/ In y l.
Proof.
  induction l as [|z l IH]; intros [|i] x y; cbn; try easy.
  - intros [ <- |H]; auto.
  - intros [ <- |H]; [auto|]. apply IH in H. intuition.
Qed.

Lemma manager_bags_move (w : world) d m u l :
  look (w_files w) (d, TempFile (m_number m) u) = Some (MetaContent m) ->
  look (w_files w) (d, MetaFile (m_number m)) = None ->
  stored (w_files w) d m = Some l -> items_ok l ->
  manager_bags (move (d, TempFile (m_number m) u) (d, MetaFile (m_number m)) (w_files w))
    (Manager d m) l.
Proof.
  intros T N S OK. split; [|split; [|exact OK]].
  - unfold manager_ok. cbn. rewrite (look_move _ _ _ _ _ T) by discriminate.
    now rewrite path_eqb_refl.
  - cbn. eapply stored_keeps; [|exact S]. eapply keeps_move; eauto.
Qed.

(** the commit itself *)
Lemma good_committed (w : world) t c d m u k tk0 ms :
  inv w -> running (w_threads w t) = Some (c, tk0) -> managers (w_threads w t) = ms ->
  owned tk0 = Some u ->
  commit_ok (w_files w) c ms d m k ->
  look (w_files w) (d, TempFile (m_number m) u) = Some (MetaContent m) ->
  look (w_files w) (d, MetaFile (m_number m)) = None ->
  good w
    (committed process_of
       (set_files w (move (d, TempFile (m_number m) u) (d, MetaFile (m_number m)) (w_files w)))
       t d m k) t c ms.
Proof.
  intros I R M O C T N.
  destruct (commit_facts w c ms d m k I C N) as (l & NUM & ST & OK & CH).
  set (fs' := move (d, TempFile (m_number m) u) (d, MetaFile (m_number m)) (w_files w)).
  assert (K : keeps (w_files w) fs') by (eapply keeps_move; eauto).
  assert (MB : manager_bags fs' (Manager d m) l) by (apply manager_bags_move; auto).
  assert (MS : forall g, In g ms -> exists l, manager_bags fs' g l).
  { intros g G. rewrite <- M in G. destruct (proj1 (i_threads w I t) g G) as (l' & X).
    exists l'. eapply manager_bags_keeps; eauto. }
  assert (COMMIT : forall chg th, chg = change_by k l -> thread_ok fs' th ->
    (forall c tk, running th = Some (c, tk) -> owned tk = None) ->
    inv (set_thread (log_commit (set_files w fs') (Commit t d (m_number m) chg)) t th)).
  { intros chg th -> TH OTH. eapply inv_commit; eauto. }
  destruct k as [|i g' bags|bags|bags|]; cbn [committed commit_ok change_by] in *.
  - destruct C as [-> ->]. unfold return_manager. cbn [w_threads log_commit set_files].
    rewrite M. split.
    + apply COMMIT; [reflexivity| |easy]. split; [|exact Logic.I]. cbn.
      intros g G. apply in_app_iff in G as [G|[ <- |[]]]; eauto.
    + right. split; [rewrite set_thread_same; reflexivity|].
      rewrite set_thread_same. cbn [outcome succeeded]. split; [reflexivity|].
      rewrite set_thread_same. cbn. auto.
  - destruct C as (g & u' & <- & -> & ((-> & _ & -> & G) & l0 & MB0 & OK0) & S).
    cbn [w_threads log_commit set_files].
    set (m := extended_meta (g_meta g) u' bags) in *.
    replace (skipn (length (m_bags (g_meta g))) (m_bags m)) with (@new_entries Bag Custom u' 0 bags).
    2:{ subst m. cbn. rewrite skipn_app, skipn_all, Nat.sub_diag. reflexivity. }
    set (cc := cache_new _ _ _ _).
    assert (CC : forall k q b, In ((k, q), b) cc -> look fs' q = Some (BagContent b)).
    { subst cc. intros k q b. apply (cache_new_ok _ _ u').
      - eapply stored_entries_keeps; eauto.
      - intros k' q' b' IN. apply (proj1 K). eapply (i_cache w I); eauto. }
    rewrite M. split.
    + change (inv (set_cache (set_thread (log_commit (set_files w fs')
          (Commit t (g_dir g) (m_number m) (BagsAdded bags))) t
          (Thread (replace_nth i (Manager (g_dir g) m) ms) None Added)) (process_of t) cc)).
      apply inv_set_cache; [|exact CC]. apply COMMIT; [reflexivity| |easy].
      split; [|exact Logic.I]. cbn. intros g' G'. apply In_replace_nth in G' as [ -> |G']; eauto.
    + right. split; [rewrite set_thread_same; reflexivity|].
      rewrite set_thread_same. cbn [outcome succeeded]. split; [reflexivity|].
      destruct (manager_latest w g l0 I MB0) as [_ RP]; [exact N|].
      assert (l = l0 ++ bags) as ->.
      { cbn in CH. rewrite RP in CH. congruence. }
      exists g, l0, m. split; [exact G|]. split; [apply MB0|].
      rewrite set_thread_same. cbn [managers]. split; [reflexivity|]. split; [apply MB|].
      split; [reflexivity|]. split; [exact RP|reflexivity].
  - destruct C as [EX ->]. cbn [new_ok] in EX. cbn [names_of initial_meta m_bags map].
    rewrite (validate_complete bags []); [|exact (extract_items _ _ _ _ _ EX)|easy].
    unfold goto. cbn [w_threads log_commit set_files]. rewrite R, M.
    assert (EX' := extract_ok_keeps _ _ _ _ _ _ K EX). split.
    + apply COMMIT; [reflexivity| |].
      * split; [exact MS|]. cbn [running task_ok]. split.
        { split; [reflexivity|]. split; [reflexivity|]. exact EX'. }
        exists []. split; [|exact (extract_items _ _ _ _ _ EX)].
        cbn in ST. injection ST as <-. exact MB.
      * cbn. intros c' tk [= <- <-]. reflexivity.
    + left. eexists. rewrite set_thread_same. cbn [running managers].
      split; [reflexivity|]. split; [reflexivity|]. right.
      destruct EX as (i & names & deps & g & l' & sel & -> & _).
      exists i, names, deps, d. split; reflexivity.
  - destruct C as (g & u' & <- & -> & ((_ & GM & EX) & l0 & MB0 & OK0) & S).
    cbn [w_threads log_commit set_files].
    rewrite GM in *. set (m := extended_meta initial_meta u' bags) in *.
    change (m_bags m) with (@new_entries Bag Custom u' 0 bags).
    set (cc := cache_new _ _ _ _).
    assert (CC : forall k q b, In ((k, q), b) cc -> look fs' q = Some (BagContent b)).
    { subst cc. intros k q b. apply (cache_new_ok _ _ u').
      - eapply stored_entries_keeps; eauto.
      - intros k' q' b' IN. apply (proj1 K). eapply (i_cache w I); eauto. }
    unfold return_. cbn [w_threads set_cache log_commit set_files]. rewrite M. split.
    + change (inv (set_cache (set_thread (log_commit (set_files w fs')
          (Commit t (g_dir g) (m_number m) (BagsAdded bags))) t
          (Thread ms None Extracted)) (process_of t) cc)).
      apply inv_set_cache; [|exact CC]. apply COMMIT; [reflexivity| |easy].
      split; [exact MS|exact Logic.I].
    + right. split; [rewrite set_thread_same; reflexivity|].
      rewrite set_thread_same. cbn [outcome].
      destruct (manager_latest w g l0 I MB0) as [_ RP]; [rewrite GM; exact N|].
      assert (l0 = []) as ->.
      { destruct MB0 as (_ & S0 & _). rewrite GM in S0. cbn in S0. congruence. }
      destruct EX as (i & names & deps & g' & l' & sel & -> & G' & MB' & SEL & ->).
      cbn [succeeded]. split; [reflexivity|]. rewrite set_thread_same. cbn [managers].
      split; [reflexivity|]. exists sel. split; [|split; [exact RP|reflexivity]].
      exists g', l'. split; [exact G'|]. split; [apply MB'|exact SEL].
  - cbn [w_files log_commit set_files].
    assert (ST' : stored fs' d m = Some l) by apply MB.
    fold fs'. rewrite ST'. unfold return_. cbn [w_threads log_commit set_files]. rewrite M.
    destruct C as (i & names & deps & g & l' & sel & -> & G & MB' & SEL & NUM0 & ST2).
    assert (l = sel) as -> by congruence. split.
    + apply COMMIT; [reflexivity| |easy]. split; [exact MS|exact Logic.I].
    + right. split; [rewrite set_thread_same; reflexivity|].
      rewrite set_thread_same. cbn [outcome succeeded]. split; [reflexivity|].
      rewrite set_thread_same. cbn [managers]. split; [reflexivity|].
      exists sel. split; [|cbn; now rewrite NUM0].
      exists g, l'. split; [exact G|]. split; [apply MB'|exact SEL].
Qed.

(** nothing happens *)
Lemma good_stay (w : world) t c tk ms :
  inv w -> running (w_threads w t) = Some (c, tk) -> managers (w_threads w t) = ms ->
  good w w t c ms.
Proof. intros I R M. split; [exact I|]. left. exists tk. auto. Qed.

(** a world with the same log as [w]: the call goes on *)
Lemma good_moved (w w1 : world) t c tk tk' ms :
  inv (goto w1 t tk') -> w_log w1 = w_log w ->
  running (w_threads w1 t) = Some (c, tk) -> managers (w_threads w1 t) = ms ->
  good w (goto w1 t tk') t c ms.
Proof.
  intros I L R M. split; [exact I|]. left. exists tk'. unfold goto. rewrite R, set_thread_same.
  cbn. auto.
Qed.

Lemma file_exists_false (w : world) p : file_exists w p = false <-> look (w_files w) p = None.
Proof. unfold file_exists. destruct (look (w_files w) p); split; congruence. Qed.

Lemma outdated_file (w : world) g l : inv w -> manager_bags (w_files w) g l ->
  look (w_files w) (g_dir g, MetaFile (m_number (g_meta g) + 1)) <> None -> outdated w g.
Proof.
  intros I MB L.
  destruct (look (w_files w) (g_dir g, MetaFile (m_number (g_meta g) + 1))) as [x|] eqn:E;
    [|congruence].
  destruct (meta_manager w _ _ _ I E) as (m & l' & _ & _ & _ & LT & _).
  apply (commit_in_log w _ _ I LT).
Qed.

(** the version to commit is taken *)
Lemma taken_cause (w : world) c ms d m k e : inv w ->
  commit_ok (w_files w) c ms d m k ->
  look (w_files w) (d, MetaFile (m_number m)) <> None ->
  e = AlreadyCommitted \/ e = FileExists ->
  cause w c ms e.
Proof.
  intros I C L E.
  destruct k as [|i g' bags|bags|bags|]; cbn [commit_ok new_ok] in C.
  - destruct C as [-> _]. cbn. destruct E as [-> | ->]; repeat split; discriminate.
  - destruct C as (g & u' & <- & -> & ((-> & _ & -> & G) & l0 & MB0 & OK0) & S).
    cbn. left. split; [exact E|]. exists g. split; [exact G|]. eapply outdated_file; eauto.
  - destruct C as [(i & names & deps & g & l & sel & -> & _) _].
    cbn. destruct E as [-> | ->]; repeat split; discriminate.
  - destruct C as (g & u' & <- & -> & ((_ & _ & (i & names & deps & g2 & l & sel & -> & _)) & _) & _).
    cbn. destruct E as [-> | ->]; repeat split; discriminate.
  - destruct C as (i & names & deps & g & l & sel & -> & _).
    cbn. destruct E as [-> | ->]; repeat split; discriminate.
Qed.

Lemma new_jobs_nth u (bags : list to_add) : forall i n j,
  nth_error (new_jobs u i bags) n = Some j ->
  j_file j = BagFile u (i + n) /\ exists b, nth_error bags n = Some b /\ j_bag j = a_bag b.
Proof.
  induction bags as [|b bags IH]; intros i n j E; [destruct n; discriminate|].
  destruct n as [|n]; cbn in E.
  - injection E as <-. cbn. rewrite Nat.add_0_r. eauto.
  - destruct (IH (S i) n j E) as (A & B). cbn. rewrite A. split; [f_equal; lia|exact B].
Qed.

Lemma jobs_nth (jobs : list job) u (bags : list to_add) n j :
  map j_file jobs = map j_file (new_jobs u 0 bags) -> map j_bag jobs = map a_bag bags ->
  nth_error jobs n = Some j ->
  j_file j = BagFile u n /\ exists b, nth_error bags n = Some b /\ j_bag j = a_bag b.
Proof.
  intros F B E.
  pose proof (map_nth_error j_file n jobs E) as F1. rewrite F in F1.
  pose proof (map_nth_error j_bag n jobs E) as B1. rewrite B in B1.
  rewrite nth_error_map in F1, B1.
  destruct (nth_error (new_jobs u 0 bags) n) as [j'|] eqn:E'; [|discriminate].
  destruct (nth_error bags n) as [b|]; [|discriminate].
  cbn in F1, B1. injection F1 as F1. injection B1 as B1.
  destruct (new_jobs_nth u bags 0 n j' E') as (A & _).
  split; [rewrite <- F1; exact A|]. exists b. auto.
Qed.

Lemma replace_nth_map {A B} (f : A -> B) (l : list A) : forall n x y,
  nth_error l n = Some y -> f x = f y -> map f (replace_nth n x l) = map f l.
Proof.
  induction l as [|z l IH]; intros [|n] x y E F; cbn in *; try discriminate.
  - injection E as ->. now rewrite F.
  - f_equal. eapply IH; eauto.
Qed.

Lemma replace_nth_In {A} (l : list A) : forall n x y,
  In y (replace_nth n x l) ->
  y = x \/ exists k, k <> n /\ nth_error l k = Some y.
Proof.
  induction l as [|z l IH]; intros [|n] x y; cbn; try easy.
  - intros [ <- |H]; [auto|]. right. apply In_nth_error in H as (k & K). exists (S k). auto.
  - intros [ <- |H].
    + right. exists 0. auto.
    + apply IH in H as [H|(k & K1 & K2)]; [auto|]. right. exists (S k). auto.
Qed.

(** a thread of the pool writes *)
Lemma good_job (w : world) t c g bags u jobs k n j ms :
  inv w -> running (w_threads w t) = Some (c, Writing g bags u jobs k) ->
  managers (w_threads w t) = ms ->
  nth_error jobs n = Some j ->
  good w
    (let (w', j') := job_step w (g_dir g) j in
     goto w' t (Writing g bags u (replace_nth n j' jobs) k)) t c ms.
Proof.
  intros I R M E.
  destruct (i_threads w I t) as [_ TK]. rewrite R, M in TK. cbn [task_ok] in TK.
  destruct TK as (A & F & B & J).
  destruct (jobs_nth jobs u bags n j F B E) as (JF & b & NB & JB).
  assert (OKJ : job_ok (w_files w) (g_dir g) j).
  { rewrite Forall_forall in J. apply J. eapply nth_error_In; eauto. }
  assert (TASK : forall fs' j', keeps (w_files w) fs' -> j_file j' = j_file j ->
    j_bag j' = j_bag j -> job_ok fs' (g_dir g) j' ->
    (forall f, f <> j_file j -> look fs' (g_dir g, f) = look (w_files w) (g_dir g, f)) ->
    task_ok fs' c ms (Writing g bags u (replace_nth n j' jobs) k)).
  { intros fs' j' K E1 E2 OK' SAME. cbn [task_ok]. split; [eapply add_ok_keeps; eauto|].
    split; [rewrite (replace_nth_map j_file jobs n j' j E E1); exact F|].
    split; [rewrite (replace_nth_map j_bag jobs n j' j E E2); exact B|].
    apply Forall_forall. intros x X. apply replace_nth_In in X as [ -> |(k' & K1 & K2)]; [exact OK'|].
    destruct (jobs_nth jobs u bags k' x F B K2) as (XF & _).
    rewrite Forall_forall in J. specialize (J x (nth_error_In _ _ K2)).
    unfold job_ok in *. rewrite SAME; [exact J|]. rewrite XF, JF. congruence. }
  assert (U : uuid_of (j_file j) = Some u) by (rewrite JF; reflexivity).
  unfold job_step. unfold job_ok in OKJ. destruct (j_phase j) eqn:P.
  - eapply good_goto; [exact I|exact R|exact M| |right; reflexivity].
    apply TASK; auto using keeps_refl. unfold job_ok. cbn.
    destruct (file_exists w (g_dir g, j_file j)); [exact Logic.I|exact OKJ].
  - eapply good_moved; [|reflexivity|exact R|exact M].
    eapply inv_put; [exact I|exact R|exact U|reflexivity|left; auto|auto|].
    rewrite M. apply TASK; auto.
    + apply keeps_put; [congruence|auto].
    + unfold job_ok. cbn. apply look_put_same.
    + intros f NF. apply look_put_other. congruence.
  - eapply good_moved; [|reflexivity|exact R|exact M].
    eapply inv_put; [exact I|exact R|exact U|reflexivity|left; auto|auto|].
    rewrite M. apply TASK; auto.
    + apply keeps_put; [congruence|auto].
    + unfold job_ok. cbn. apply look_put_same.
    + intros f NF. apply look_put_other. congruence.
  - eapply good_goto; [exact I|exact R|exact M| |right; reflexivity].
    apply TASK; auto using keeps_refl. unfold job_ok. rewrite P. exact OKJ.
  - eapply good_goto; [exact I|exact R|exact M| |right; reflexivity].
    apply TASK; auto using keeps_refl. unfold job_ok. rewrite P. exact Logic.I.
Qed.

Lemma not_used_absent (w : world) d f u : inv w -> uuid_of f = Some u ->
  ~ In u (w_used w) -> look (w_files w) (d, f) = None.
Proof.
  intros I U N. destruct (look (w_files w) (d, f)) eqn:E; [|reflexivity]. exfalso. apply N.
  eapply (i_used w I); [|exact U]. rewrite E. discriminate.
Qed.

Theorem run_task_ok (w : world) t c tk n u ms : inv w ->
  running (w_threads w t) = Some (c, tk) -> managers (w_threads w t) = ms ->
  good w (run_task process_of true w t tk n u) t c ms.
Proof.
  intros I R M. destruct (i_threads w I t) as [MGS TK]. rewrite R, M in TK. rewrite M in MGS.
  assert (GO : forall tk', task_ok (w_files w) c ms tk' -> owned tk' = None ->
    good w (goto w t tk') t c ms) by (intros tk' OK O; eapply good_goto; eauto).
  assert (GOD : forall d tk', task_ok (w_files w) c ms tk' -> owned tk' = None ->
    good w (goto (add_dir w d) t tk') t c ms).
  { intros d tk' OK O. eapply good_moved; [|reflexivity|exact R|exact M].
    eapply inv_goto; [now apply inv_add_dir|exact R|cbn [add_dir w_threads]; rewrite M; exact OK|auto]. }
  assert (RA : forall e, cause w c ms e -> good w (raise_ w t e) t c ms)
    by (intros e C; eapply good_raise; eauto).
  destruct tk as [|d k|d k|d k|d m k|d m k|d m v k|d m v k|d m v k
    |d|d|d|d f|g bags k|g bags v jobs k|g todo loaded p|d o|d o|d o];
    cbn [run_task task_ok] in *.
  - eapply good_stay; eauto.
  - destruct (dir_exists w d); apply GO; auto.
  - now apply GOD.
  - destruct (empty_dir w d).
    + apply GO; [|reflexivity]. cbn [task_ok]. destruct k; cbn in *; auto; contradiction.
    + apply RA. destruct k; cbn in TK; try contradiction.
      * subst c. cbn. repeat split; discriminate.
      * destruct TK as (i & names & deps & g & l & sel & -> & _).
        cbn. repeat split; discriminate.
  - destruct (file_exists w (d, MetaFile (m_number m))) eqn:E.
    + apply RA. eapply taken_cause; eauto. intros L. apply file_exists_false in L. congruence.
    + now apply GO.
  - destruct (fresh w u) eqn:F; [|eapply good_stay; eauto].
    apply fresh_spec in F.
    assert (AB : look (w_files w) (d, TempFile (m_number m) u) = None)
      by (eapply not_used_absent; eauto; reflexivity).
    eapply good_moved; [|reflexivity|exact R|exact M].
    apply (inv_put w (use_uuid w u) t c (PersistOpen d m k) _ u); auto.
    rewrite M. cbn [task_ok]. split.
    + eapply commit_ok_keeps; [|exact TK]. apply keeps_put; [discriminate|auto].
    + apply look_put_same.
  - destruct TK as [TK P].
    eapply good_moved; [|reflexivity|exact R|exact M].
    apply (inv_put w w t c (PersistWrite d m v k) _ v); auto.
    rewrite M. cbn [task_ok]. split.
    + eapply commit_ok_keeps; [|exact TK]. apply keeps_put; [discriminate|auto].
    + apply look_put_same.
  - destruct TK as [TK P].
    destruct (file_exists w (d, MetaFile (m_number m))) eqn:E.
    + apply RA. eapply taken_cause; eauto. intros L. apply file_exists_false in L. congruence.
    + apply file_exists_false in E. eapply good_committed; eauto; reflexivity.
  - contradiction.
  - destruct (dir_exists w d); [now apply GO|]. apply RA. subst c. cbn. repeat split; discriminate.
  - destruct (empty_dir w d); [|now apply GO]. apply RA. subst c. cbn. repeat split; discriminate.
  - destruct (latest_name (w_files w) d) as [f|] eqn:L.
    + apply GO; [|reflexivity]. cbn [task_ok]. split; [exact TK|].
      destruct (latest_name_some _ _ _ L) as (k & -> & _ & P & _).
      destruct (look (w_files w) (d, MetaFile k)) as [x|] eqn:E; [|congruence]. eauto.
    + apply RA. subst c. cbn. repeat split; discriminate.
  - destruct TK as [-> (k & x & -> & L)]. rewrite L.
    destruct (meta_manager w d k x I L) as (m & l & -> & _ & MB & _).
    split; [eapply inv_return_manager; eauto|]. right. unfold return_manager.
    split; [rewrite set_thread_same; reflexivity|]. rewrite set_thread_same. cbn [outcome succeeded].
    split; [reflexivity|]. split; [reflexivity|]. exists m. rewrite set_thread_same. cbn. congruence.
  - destruct (fresh w u) eqn:F; [|eapply good_stay; eauto].
    apply fresh_spec in F.
    eapply good_moved; [|reflexivity|exact R|exact M].
    eapply inv_goto_uuid; [exact I|exact R|exact F| |reflexivity].
    rewrite M. cbn [task_ok]. split; [exact TK|]. split; [reflexivity|]. split.
    + generalize 0. clear. induction bags as [|b bags IH]; intros i; cbn; [reflexivity|].
      now rewrite IH.
    + apply Forall_forall. intros j J.
      assert (U : uuid_of (j_file j) = Some u)
        by (eapply new_jobs_uuid; apply in_map; exact J).
      unfold job_ok. replace (j_phase j) with ToCheck.
      * eapply not_used_absent; eauto.
      * revert J. generalize 0. clear. induction bags as [|b bags IH]; intros i J; [easy|].
        destruct J as [ <- |J]; [reflexivity|]. eapply IH; eauto.
  - destruct (forallb job_over jobs) eqn:OV.
    + destruct (existsb job_failed jobs) eqn:FA.
      * apply RA. destruct TK as ((A & l & MB & OK) & _).
        destruct k; try contradiction.
        -- destruct A as (_ & _ & -> & _). cbn. auto.
        -- destruct A as (_ & _ & (i & names & deps & g' & l' & sel & -> & _)).
           cbn. repeat split; discriminate.
      * apply GO; [|reflexivity]. cbn [task_ok].
        destruct TK as (A & F & B & J).
        assert (S : stored_entries (w_files w) (g_dir g) (new_entries v 0 bags) = Some bags).
        { apply stored_new. intros i b NB. cbn.
          assert (exists j, nth_error jobs i = Some j) as [j NJ].
          { destruct (nth_error jobs i) eqn:E; [eauto|]. apply nth_error_None in E.
            apply (f_equal (@length _)) in B. rewrite !map_length in B.
            assert (i < length bags) by (apply nth_error_Some; congruence). lia. }
          destruct (jobs_nth jobs v bags i j F B NJ) as (JF & b' & NB' & JB).
          assert (b' = b) as -> by congruence.
          rewrite Forall_forall in J. specialize (J j (nth_error_In _ _ NJ)).
          rewrite forallb_forall in OV. specialize (OV j (nth_error_In _ _ NJ)).
          assert (NF : job_failed j = false).
          { destruct (job_failed j) eqn:E; [|reflexivity].
            assert (existsb job_failed jobs = true); [|congruence].
            apply existsb_exists. exists j. split; [eapply nth_error_In; eauto|exact E]. }
          unfold job_over, job_failed, job_ok in *. rewrite JF, JB in J.
          destruct (j_phase j); try discriminate. exact J. }
        destruct k as [|i g' bags'|bags'|bags'|]; try (destruct A as [A _]; contradiction).
        -- destruct A as [(-> & -> & A1 & A2) A3]. exists g, v. split; [reflexivity|].
           split; [reflexivity|]. split; [|exact S]. split; [auto|exact A3].
        -- destruct A as [(-> & A1 & A2) A3]. exists g, v. split; [reflexivity|].
           split; [reflexivity|]. split; [|exact S]. split; [auto|exact A3].
    + destruct (nth_error jobs n) as [j|] eqn:E; [|eapply good_stay; eauto].
      eapply good_job; eauto.
  - destruct todo as [|s todo].
    + eapply (good_all_loaded pick); eauto.
    + destruct TK as (i & names & deps & l & LC & G & MB & KN & ND & H & LO).
      destruct (meta_ok_items _ g l MB) as (E & MO & NM).
      destruct (stored_path (w_files w) g l s) as (q & x & -> & X1 & X2 & X3).
      { apply MB. }
      { rewrite <- NM. eapply needed_is_name; [exact MO|rewrite NM; exact KN|].
        apply H. apply in_app_iff. right. now left. }
      rewrite X3.
      destruct (cache_set (w_caches w (process_of t)) (s, q) (a_bag x)) as [cc b] eqn:CS.
      assert (b = a_bag x) as ->.
      { unfold cache_set in CS.
        destruct (cache_get (w_caches w (process_of t)) (s, q)) as [b'|] eqn:CG.
        - injection CS as <- <-. apply cache_get_In in CG. apply (i_cache w I) in CG. congruence.
        - now injection CS. }
      assert (IC : inv (set_cache w (process_of t) cc)).
      { apply inv_set_cache; [exact I|]. intros k' q' b' IN.
        assert (IN' : In ((k', q'), b') (fst (cache_set (w_caches w (process_of t)) (s, q) (a_bag x))))
          by (rewrite CS; exact IN).
        apply cache_set_In in IN' as [Y|Y]; [|eapply (i_cache w I); eauto].
        injection Y as _ -> ->. exact X3. }
      assert (LD : loading_ok (w_files w) c ms g todo (loaded ++ [(s, a_bag x)]) p).
      { exists i, names, deps, l. split; [exact LC|]. split; [exact G|]. split; [exact MB|].
        split; [exact KN|]. rewrite map_app. cbn [map fst]. rewrite <- app_assoc. cbn [app].
        split; [exact ND|]. split; [exact H|].
        intros s' b' IN. apply in_app_iff in IN as [IN|[[= <- <-]|[]]]; [now apply LO|eauto]. }
      destruct todo as [|s' todo'].
      * eapply (good_all_loaded pick); [exact IC|exact R|exact M|reflexivity|reflexivity|exact LD].
      * eapply good_moved; [|reflexivity|exact R|exact M].
        eapply inv_goto; [exact IC|exact R|cbn [managers set_cache w_threads]; rewrite M; exact LD|auto].
  - destruct (dir_exists w d); now apply GO.
  - now apply GOD.
  - destruct (empty_dir w d).
    + destruct o; cbn [output_ready]; now apply GO.
    + apply RA. destruct o; destruct TK as (i & names & deps & g & l & sel & -> & _);
        cbn; repeat split; discriminate.
Qed.

End Runs.
