(** Properties of bag managers (ext/storage/data_bag_manager.py).

    A history is any list of events: calls started by any number of threads in
    any number of processes, their interactions with the file system one by
    one, failing file operations, processes that stop at any point, and
    evictions from the caches. [true]: renaming a file to an existing name
    fails atomically. *)
From Coq Require Import String Ascii.
From Coq Require Import NArith List Bool PeanoNat Permutation.
From Verif Require Import StoreModel StoreSpec StoreFileProofs StoreInvProofs StoreStepProofs
  StoreHistoryProofs StoreCallProofs StoreOutcomeProofs StoreReopenProofs.
Import ListNotations.
Local Open Scope nat_scope.

Section Props.
Context {Bag Custom : Type}.
(** the order in which set.pop takes names; the processes of the threads *)
Variable pick : list string -> nat.
Variable process_of : nat -> nat.
Notation run := (@run Bag Custom pick process_of true).
Notation start := (@start Bag Custom).

(** ** C21: load_bags *)

(** A call of load_bags, whatever else happens meanwhile and whatever the cache
    holds: the result is exactly the selected bags, each with the data that
    was added under its name. It fails only for unknown names and for failing
    file operations. *)
Theorem C21_load_bags : forall history t i names deps es g all,
  let w := run start history in
  running (w_threads w t) = None ->
  nth_error (managers (w_threads w t)) i = Some g -> bags_of w g = Some all ->
  during t es ->
  let w' := run w (Start t (LoadBags i names deps) :: es) in
  managers (w_threads w' t) = managers (w_threads w t)
  /\ (exists ext, w_log w' = w_log w ++ ext /\ own t ext = [])
  /\ (running (w_threads w' t) = None ->
      match outcome (w_threads w' t) with
      | Loaded l =>
          (forall s, In s names -> In s (map a_name all))
          /\ exists sel, selection all names deps sel
               /\ Permutation l (map (fun x => (a_name x, a_bag x)) sel)
      | Failed UnknownBags => exists s, In s names /\ ~ In s (map a_name all)
      | Failed IoError => io_error t es
      | _ => False
      end).
Proof.
  intros history t i names deps es g all w.
  exact (load_outcome pick process_of w t i names deps es g all
           (inv_reachable pick process_of history)).
Qed.

(** Every manager has a list of named bags, with unique names, in which bags
    come after all they depend on; it never changes while the manager does not. *)
Theorem C21_managers_have_bags : forall history t g,
  let w := run start history in
  In g (managers (w_threads w t)) ->
  exists all, unique_names all /\ dependencies_first all
    /\ forall es, bags_of (run w es) g = Some all.
Proof.
  intros history t g w G.
  destruct (manager_has_bags w t g (inv_reachable pick process_of history) G) as (l & A & B & C).
  exists l. split; [exact B|]. split; [exact C|]. intros es.
  exact (bags_keeps w _ g l (run_keeps pick process_of es w (inv_reachable pick process_of history)) A).
Qed.

(** Loading only reads. *)
Theorem C21_loading_only_reads : forall history t c tk n u,
  let w := run start history in
  match c with LoadBags _ _ _ | GetMinimalBag _ _ _ => True | _ => False end ->
  (running (w_threads w t) = Some (c, tk) ->
   let w' := run w [Run t n u] in
   w_files w' = w_files w /\ w_dirs w' = w_dirs w /\ w_log w' = w_log w)
  /\ let w' := run w [Start t c] in
     w_files w' = w_files w /\ w_dirs w' = w_dirs w /\ w_log w' = w_log w.
Proof.
  intros history t c tk n u w LC. split.
  - intros R. exact (loading_only_reads pick process_of w t c tk n u (inv_reachable pick process_of history) R LC).
  - exact (starting_only_reads pick process_of w t c LC).
Qed.

(** Loading ends when its thread is given the time. *)
Theorem C21_loading_ends : forall history t c u,
  let w := run start history in
  match c with LoadBags _ _ _ | GetMinimalBag _ _ _ => True | _ => False end ->
  running (w_threads w t) = None ->
  exists n, running (w_threads (run w (Start t c :: repeat (Run t 0 u) n)) t) = None.
Proof.
  intros history t c u w LC R.
  exact (load_ends pick process_of w t c u (inv_reachable pick process_of history) R LC).
Qed.

(** ** C22: selections *)

(** What is selected: each bag once, after all that it depends on, with all the
    names that were asked for, and nothing without a reason. *)
Theorem C22_selection : forall (all sel : list (@to_add Bag Custom)) names deps,
  unique_names all -> dependencies_first all -> selection all names deps sel ->
  unique_names sel /\ dependencies_first sel
  /\ (forall s, In s (map a_name sel) <-> In s (map a_name all) /\ needed all names deps s)
  /\ (forall x, In x sel -> In x all)
  /\ (forall other, selection all names deps other -> other = sel).
Proof.
  intros all sel names deps U D S.
  destruct (selection_ok all sel names deps (conj U D) S) as [A B].
  split; [exact A|]. split; [exact B|]. split; [|split].
  - intros s. destruct S as (keep & -> & K). rewrite !in_map_iff. split.
    + intros (x & <- & X). apply filter_In in X as [X1 X2]. split; [eauto|]. now apply K.
    + intros [(x & <- & X) N]. exists x. split; [reflexivity|]. apply filter_In.
      split; [exact X|]. now apply K.
  - intros x X. destruct S as (keep & -> & _). now apply filter_In in X.
  - intros other O. exact (selection_unique all other sel names deps O S).
Qed.

(** get_minimal_bag updates with the selected bags, in the order in which they
    were added. *)
Theorem C22_minimal_bag : forall history t i names deps es g all,
  let w := run start history in
  running (w_threads w t) = None ->
  nth_error (managers (w_threads w t)) i = Some g -> bags_of w g = Some all ->
  during t es ->
  let w' := run w (Start t (GetMinimalBag i names deps) :: es) in
  managers (w_threads w' t) = managers (w_threads w t)
  /\ (exists ext, w_log w' = w_log w ++ ext /\ own t ext = [])
  /\ (running (w_threads w' t) = None ->
      match outcome (w_threads w' t) with
      | Updated l =>
          (forall s, In s names -> In s (map a_name all))
          /\ exists sel, selection all names deps sel /\ l = map a_bag sel
      | Failed UnknownBags => exists s, In s names /\ ~ In s (map a_name all)
      | Failed IoError => io_error t es
      | _ => False
      end).
Proof.
  intros history t i names deps es g all w.
  exact (minimal_outcome pick process_of w t i names deps es g all
           (inv_reachable pick process_of history)).
Qed.

(** extract_bags fills a new directory with the selected bags. *)
Theorem C22_extract_bags : forall history t i names deps d es g all,
  let w := run start history in
  running (w_threads w t) = None ->
  nth_error (managers (w_threads w t)) i = Some g -> bags_of w g = Some all ->
  during t es ->
  let w' := run w (Start t (ExtractBags i names deps d) :: es) in
  managers (w_threads w' t) = managers (w_threads w t)
  /\ exists ext, w_log w' = w_log w ++ ext
     /\ match running (w_threads w' t), outcome (w_threads w' t) with
        | None, Extracted =>
            (forall s, In s names -> In s (map a_name all))
            /\ exists sel before after,
                 selection all names deps sel
                 /\ ext = before ++ Commit t d 1 (BagsAdded (map without_custom sel)) :: after
                 /\ replay (w_log w ++ before) d = Some []
                 /\ (own t before = [] \/ own t before = [Commit t d 0 Created])
                 /\ own t after = []
        | None, Failed e =>
            (own t ext = [] \/ own t ext = [Commit t d 0 Created])
            /\ match e with
               | UnknownBags => exists s, In s names /\ ~ In s (map a_name all)
               | IoError => io_error t es
               | KeyError | UnknownDependency | NameAlreadyAdded | ReadError => False
               | _ => True
               end
        | None, _ => False
        | Some _, _ => own t ext = [] \/ own t ext = [Commit t d 0 Created]
        end.
Proof.
  intros history t i names deps d es g all w.
  exact (extract_outcome pick process_of w t i names deps d es g all
           (inv_reachable pick process_of history)).
Qed.

(** ** C23: commits *)

(** After any history, with processes stopping at any points, what opening a
    directory shows is what the committed changes give. *)
Theorem C23_directory_shows_commits : forall history d,
  let w := run start history in
  few_updates w -> visible w d = replay (w_log w) d.
Proof.
  intros history d w. exact (visible_replay process_of w d (inv_reachable pick process_of history)).
Qed.

(** add_bags: either all bags are committed, or nothing; with nothing committed
    the manager is as before. *)
Theorem C23_add_bags : forall history t i bags es g all,
  let w := run start history in
  running (w_threads w t) = None ->
  nth_error (managers (w_threads w t)) i = Some g -> bags_of w g = Some all ->
  during t es ->
  let w' := run w (Start t (AddBags i bags) :: es) in
  exists ext, w_log w' = w_log w ++ ext
     /\ match running (w_threads w' t), outcome (w_threads w' t) with
        | None, Added =>
            unique_names (all ++ bags) /\ dependencies_first (all ++ bags)
            /\ exists g' before after,
                 managers (w_threads w' t) = replace_nth i g' (managers (w_threads w t))
                 /\ g_dir g' = g_dir g
                 /\ bags_of w' g' = Some (all ++ bags)
                 /\ ext = before
                      ++ Commit t (g_dir g) (m_number (g_meta g) + 1) (BagsAdded bags) :: after
                 /\ replay (w_log w ++ before) (g_dir g) = Some all
                 /\ own t before = [] /\ own t after = []
        | None, Failed e =>
            own t ext = [] /\ managers (w_threads w' t) = managers (w_threads w t)
            /\ (~ (unique_names (all ++ bags) /\ dependencies_first (all ++ bags))
                \/ e = IoError /\ io_error t es
                \/ (e = AlreadyCommitted \/ e = FileExists)
                   /\ exists c, In c (w_log w') /\ c_dir c = g_dir g
                        /\ c_number c = (m_number (g_meta g) + 1)%N)
        | None, _ => False
        | Some _, _ =>
            own t ext = [] /\ managers (w_threads w' t) = managers (w_threads w t)
        end.
Proof.
  intros history t i bags es g all w.
  exact (add_outcome pick process_of w t i bags es g all
           (inv_reachable pick process_of history)).
Qed.

(** A process that stops changes nothing that others see. *)
Theorem C23_stop : forall history t d,
  let w := run start history in
  let w' := run w [Stop t] in
  visible w' d = visible w d /\ w_log w' = w_log w
  /\ forall t', t' <> t -> w_threads w' t' = w_threads w t'.
Proof.
  intros history t d w w'. split; [reflexivity|]. split; [reflexivity|].
  intros t' N. exact (set_thread_other w t _ t' N).
Qed.

(** Opening a directory gives a manager with the bags of a moment during the
    call. It fails only without committed manager and for failing file
    operations. *)
Theorem C23_reopen : forall history t d es,
  let w := run start history in
  few_updates w -> running (w_threads w t) = None -> during t es ->
  let w' := run w (Start t (CreateFromDir d) :: es) in
  exists ext, w_log w' = w_log w ++ ext /\ own t ext = []
  /\ match running (w_threads w' t), outcome (w_threads w' t) with
     | None, NewManager =>
         exists g before after,
           managers (w_threads w' t) = managers (w_threads w t) ++ [g]
           /\ g_dir g = d
           /\ ext = before ++ after
           /\ bags_of w' g = replay (w_log w ++ before) d
     | None, Failed e =>
         managers (w_threads w' t) = managers (w_threads w t)
         /\ match e with
            | IoError => io_error t es
            | NoDirectory | NoMetadata => visible w d = None
            | _ => False
            end
     | None, _ => False
     | Some _, _ => managers (w_threads w' t) = managers (w_threads w t)
     end.
Proof.
  intros history t d es w.
  exact (open_outcome pick process_of w t d es (inv_reachable pick process_of history)
           (dirs_reachable pick process_of history)).
Qed.

(** Creating a manager *)
Theorem C23_create : forall history t d es,
  let w := run start history in
  running (w_threads w t) = None -> during t es ->
  let w' := run w (Start t (CreateNew d) :: es) in
  exists ext, w_log w' = w_log w ++ ext
     /\ match running (w_threads w' t), outcome (w_threads w' t) with
        | None, NewManager =>
            exists g before after,
              managers (w_threads w' t) = managers (w_threads w t) ++ [g]
              /\ g_dir g = d /\ bags_of w' g = Some []
              /\ ext = before ++ Commit t d 0 Created :: after
              /\ changes_of d (w_log w ++ before) = []
              /\ own t before = [] /\ own t after = []
        | None, Failed e =>
            own t ext = [] /\ managers (w_threads w' t) = managers (w_threads w t)
            /\ match e with
               | UnknownBags | KeyError | UnknownDependency | NameAlreadyAdded | ReadError => False
               | IoError => io_error t es
               | _ => True
               end
        | None, _ => False
        | Some _, _ => own t ext = [] /\ managers (w_threads w' t) = managers (w_threads w t)
        end.
Proof.
  intros history t d es w.
  exact (create_outcome pick process_of w t d es (inv_reachable pick process_of history)).
Qed.

(** ** C24: concurrent writers *)

(** No version of a directory is committed twice. *)
Theorem C24_versions_unique : forall history,
  NoDup (map (fun c => (c_dir c, c_number c)) (w_log (run start history))).
Proof.
  intros history. exact (versions_unique process_of _ (inv_reachable pick process_of history)).
Qed.

(** Whoever adds bags has seen all the bags committed before ([all] in
    C23_add_bags); nobody else's bags are lost: a directory only grows. *)
Theorem C24_no_lost_bags : forall history es d l,
  let w := run start history in
  few_updates (run w es) ->
  visible w d = Some l -> exists more, visible (run w es) d = Some (l ++ more).
Proof.
  intros history es d l w FU V.
  assert (R : run w es = run start (history ++ es)).
  { unfold w, StoreModel.run. now rewrite fold_left_app. }
  assert (I' : inv (run w es)) by (rewrite R; apply inv_reachable).
  destruct (run_log pick process_of es w) as (ext & L).
  assert (FW : few_updates w).
  { intros c C. apply FU. rewrite L. apply in_app_iff. now left. }
  rewrite (visible_replay process_of _ d I' FU).
  rewrite (visible_replay process_of w d (inv_reachable pick process_of history) FW) in V.
  rewrite L. apply replay_grows; [rewrite <- L; apply (i_numbers _ I')| |exact V].
  rewrite <- L, R. apply shaped_reachable.
Qed.

(** A manager that has missed a commit never commits. *)
Theorem C24_outdated_managers_fail : forall history t i bags es g c,
  let w := run start history in
  running (w_threads w t) = None -> nth_error (managers (w_threads w t)) i = Some g ->
  In c (w_log w) -> c_dir c = g_dir g -> c_number c = (m_number (g_meta g) + 1)%N ->
  during t es ->
  let w' := run w (Start t (AddBags i bags) :: es) in
  managers (w_threads w' t) = managers (w_threads w t)
  /\ (exists ext, w_log w' = w_log w ++ ext /\ own t ext = [])
  /\ (running (w_threads w' t) = None -> exists e, outcome (w_threads w' t) = Failed e).
Proof.
  intros history t i bags es g c w R G C1 C2 C3 D w'.
  pose proof (inv_reachable pick process_of history : inv w) as I.
  destruct (manager_has_bags w t g I (nth_error_In _ _ G)) as (all & B & _).
  destruct (add_outcome pick process_of w t i bags es g all I R G B D) as (ext & L & A).
  fold w' in L, A.
  destruct (running (w_threads w' t)) as [[c' tk]|].
  - destruct A as [A1 A2]. split; [exact A2|]. split; [eauto|discriminate].
  - destruct (outcome (w_threads w' t)) as [| | | | | | |e]; try contradiction.
    + exfalso. destruct A as (_ & _ & g' & before & after & _ & _ & _ & E & _).
      assert (I' : inv w') by now apply inv_run.
      pose proof (versions_unique process_of w' I') as ND. rewrite L, E, app_assoc, map_app in ND.
      cbn [map c_dir c_number] in ND. apply NoDup_remove_2 in ND. apply ND.
      apply in_app_iff. left. rewrite <- C2, <- C3. rewrite map_app. apply in_app_iff. left.
      now apply (in_map (fun c => (c_dir c, c_number c))).
    + destruct A as (A1 & A2 & _). split; [exact A2|]. split; [eauto|]. eauto.
Qed.

(** ** C25: branches *)

Theorem C25_create_branch : forall history t i names deps d es g all,
  let w := run start history in
  running (w_threads w t) = None ->
  nth_error (managers (w_threads w t)) i = Some g -> bags_of w g = Some all ->
  during t es ->
  let w' := run w (Start t (CreateBranch i names deps d) :: es) in
  managers (w_threads w' t) = managers (w_threads w t)
  /\ exists ext, w_log w' = w_log w ++ ext
     /\ match running (w_threads w' t), outcome (w_threads w' t) with
        | None, Branched =>
            (forall s, In s names -> In s (map a_name all))
            /\ exists sel before after,
                 selection all names deps sel
                 /\ ext = before ++ Commit t d 0 (BranchOf sel) :: after
                 /\ changes_of d (w_log w ++ before) = []
                 /\ own t before = [] /\ own t after = []
        | None, Failed e =>
            own t ext = []
            /\ match e with
               | UnknownBags => exists s, In s names /\ ~ In s (map a_name all)
               | IoError => io_error t es
               | KeyError | UnknownDependency | NameAlreadyAdded | ReadError => False
               | _ => True
               end
        | None, _ => False
        | Some _, _ => own t ext = []
        end.
Proof.
  intros history t i names deps d es g all w.
  exact (branch_outcome pick process_of w t i names deps d es g all
           (inv_reachable pick process_of history)).
Qed.

(** Nothing that happens in other directories changes a directory, be they its
    origin or its branches. *)
Theorem C25_branches_are_independent : forall history es d ext,
  let w := run start history in
  few_updates (run w es) ->
  w_log (run w es) = w_log w ++ ext ->
  (forall c, In c ext -> c_dir c <> d) ->
  visible (run w es) d = visible w d.
Proof.
  intros history es d ext w FU L O.
  assert (I' : inv (run w es)) by (apply inv_run, inv_reachable).
  assert (FW : few_updates w).
  { intros c C. apply FU. rewrite L. apply in_app_iff. now left. }
  rewrite (visible_replay process_of _ d I' FU), (visible_replay process_of w d (inv_reachable pick process_of history) FW).
  rewrite L. unfold replay, changes_of. rewrite filter_app.
  assert (E : filter (fun c => String.eqb (c_dir c) d) ext = []).
  { clear L. induction ext as [|c ext IH]; [reflexivity|]. cbn.
    destruct (String.eqb_spec (c_dir c) d) as [E|E].
    - exfalso. apply (O c); [now left|exact E].
    - apply IH. intros x X. apply O. now right. }
  now rewrite E, app_nil_r.
Qed.

End Props.

(** ** Concrete histories *)

Local Open Scope string_scope.
Local Open Scope list_scope.
Local Open Scope nat_scope.

Definition uid (c : ascii) : string := String c "1234567-89ab-cdef-0123-456789abcdef".
Definition bag (n : string) (b : N) (deps : list string) : @to_add N string := ToAdd n b deps (Some n).
Notation Events := (list (@event N string)).
Definition runs (t : nat) (u : ascii) (n : nat) : Events := repeat (Run t 0 (uid u)) n.
(** all file operations of three bags, in some order *)
Definition writes (t : nat) : Events :=
  map (fun n => Run t n (uid "0")) [2; 0; 0; 1; 2; 2; 0; 1; 1].
Definition first_pick : list string -> nat := fun _ => 0.
Definition own_process : nat -> nat := fun t => t.
Notation run_ := (@run N string first_pick own_process true start).

(** thread 0 creates a manager with the bags a, b -> a, c; thread 1 opens it *)
Definition setup : Events :=
  [Start 0 (CreateNew "main")] ++ runs 0 "a" 8
  ++ [Start 0 (AddBags 0 [bag "a" 1 []; bag "b" 2 ["a"]; bag "c" 3 []])]
  ++ runs 0 "b" 1 ++ writes 0 ++ runs 0 "c" 6
  ++ [Start 1 (CreateFromDir "main")] ++ runs 1 "d" 4.

(** both add a bag to the same version *)
Definition race : Events :=
  setup
  ++ [Start 0 (AddBags 0 [bag "x" 10 ["a"]]); Start 1 (AddBags 0 [bag "y" 11 ["b"]])]
  ++ runs 0 "e" 5 ++ runs 1 "f" 5 ++ runs 0 "g" 3 ++ runs 1 "h" 3 ++ runs 1 "h" 1 ++ runs 0 "h" 1.

Definition all_bags := [bag "a" 1 []; bag "b" 2 ["a"]; bag "c" 3 []].

Example C21_hypotheses_met :
  let w := run_ setup in
  running (w_threads w 1) = None
  /\ match nth_error (managers (w_threads w 1)) 0 with
     | Some g => bags_of w g = Some all_bags
     | None => False
     end
  /\ outcome (w_threads (run_ (setup ++ Start 1 (LoadBags 0 ["b"] false) :: runs 1 "z" 2)) 1)
     = Loaded [("b", 2%N); ("a", 1%N)]
  /\ outcome (w_threads (run_ (setup ++ [Start 1 (LoadBags 0 ["q"] false)])) 1)
     = Failed UnknownBags
  /\ outcome (w_threads (run_ (setup ++ [Start 1 (LoadBags 0 ["b"] false); Fail 1 0])) 1)
     = Failed IoError.
Proof. vm_compute. repeat split. Qed.

Example C22_hypotheses_met :
  outcome (w_threads (run_ (setup ++ Start 1 (GetMinimalBag 0 ["a"] true) :: runs 1 "z" 2)) 1)
    = Updated [1%N; 2%N]
  /\ let w := run_ (setup ++ [Start 0 (ExtractBags 0 ["b"] false "out")]
                     ++ runs 0 "k" 11 ++ runs 0 "l" 4 ++ map (fun n => Run 0 n (uid "0")) [1; 1; 1]
                     ++ runs 0 "m" 6) in
     outcome (w_threads w 0) = Extracted
     /\ visible w "out" = Some (map without_custom [bag "a" 1 []; bag "b" 2 ["a"]]).
Proof. vm_compute. repeat split. Qed.

Example C23_hypotheses_met :
  let w := run_ setup in
  visible w "main" = Some all_bags
  (* stopped just before the commit of another bag, and just after *)
  /\ (let w := run_ (setup ++ [Start 0 (AddBags 0 [bag "x" 10 []])] ++ runs 0 "e" 5 ++ runs 0 "q" 3 ++ [Stop 0]) in
      length (w_files w) = 7 /\ visible w "main" = Some all_bags)
  /\ (let w := run_ (setup ++ [Start 0 (AddBags 0 [bag "x" 10 []])] ++ runs 0 "e" 5
                       ++ runs 0 "g" 4 ++ [Stop 0]) in
      visible w "main" = Some (all_bags ++ [bag "x" 10 []]))
  /\ outcome (w_threads (run_ (setup ++ [Start 0 (AddBags 0 [bag "a" 10 []])])) 0)
     = Failed NameAlreadyAdded.
Proof. vm_compute. repeat split. Qed.

Example C24_hypotheses_met :
  let w := run_ race in
  outcome (w_threads w 1) = Added /\ outcome (w_threads w 0) = Failed FileExists
  /\ visible w "main" = Some (all_bags ++ [bag "y" 11 ["b"]]).
Proof. vm_compute. repeat split. Qed.

Example C25_hypotheses_met :
  let w := run_ (setup ++ [Start 1 (CreateBranch 0 ["b"] false "branch")] ++ runs 1 "k" 7
                   ++ [Start 1 (CreateFromDir "branch")] ++ runs 1 "d" 4
                   ++ [Start 1 (AddBags 1 [bag "y" 11 ["b"]])] ++ runs 1 "m" 5 ++ runs 1 "n" 4
                   ++ [Start 0 (AddBags 0 [bag "x" 10 []])] ++ runs 0 "e" 5 ++ runs 0 "g" 4) in
  visible w "branch" = Some [bag "a" 1 []; bag "b" 2 ["a"]; bag "y" 11 ["b"]]
  /\ visible w "main" = Some (all_bags ++ [bag "x" 10 []]).
Proof. vm_compute. repeat split. Qed.

(** The default file system only checks for existing files before renaming
    (file_io/fs_implementation.py:45-55). Two writers can commit the same
    version, and one of the two successful updates is lost. *)
Theorem C24_check_then_rename_refuted : exists history : Events,
  let w := @run N string first_pick own_process false start history in
  outcome (w_threads w 0) = Added /\ outcome (w_threads w 1) = Added
  /\ ~ NoDup (map (fun c => (c_dir c, c_number c)) (w_log w))
  /\ visible w "main" = Some (all_bags ++ [bag "x" 10 ["a"]])
  /\ In (Commit 1 "main" 2 (BagsAdded [bag "y" 11 ["b"]])) (w_log w).
Proof.
  exists (setup
    ++ [Start 0 (AddBags 0 [bag "x" 10 ["a"]]); Start 1 (AddBags 0 [bag "y" 11 ["b"]])]
    ++ runs 0 "e" 5 ++ runs 1 "f" 5 ++ runs 0 "g" 4 ++ runs 1 "h" 4
    ++ runs 1 "h" 1 ++ runs 0 "h" 1).
  split; [vm_compute; reflexivity|]. split; [vm_compute; reflexivity|].
  split; [|split; [vm_compute; reflexivity|vm_compute; tauto]].
  intros H. vm_compute in H.
  inversion_clear H as [|? ? _ H1]. inversion_clear H1 as [|? ? _ H2].
  inversion_clear H2 as [|? ? N _]. apply N. now left.
Qed.

Print Assumptions C21_load_bags.
Print Assumptions C21_managers_have_bags.
Print Assumptions C21_loading_only_reads.
Print Assumptions C21_loading_ends.
Print Assumptions C22_selection.
Print Assumptions C22_minimal_bag.
Print Assumptions C22_extract_bags.
Print Assumptions C23_directory_shows_commits.
Print Assumptions C23_add_bags.
Print Assumptions C23_stop.
Print Assumptions C23_reopen.
Print Assumptions C23_create.
Print Assumptions C24_versions_unique.
Print Assumptions C24_no_lost_bags.
Print Assumptions C24_outdated_managers_fail.
Print Assumptions C24_check_then_rename_refuted.
Print Assumptions C25_create_branch.
Print Assumptions C25_branches_are_independent.
