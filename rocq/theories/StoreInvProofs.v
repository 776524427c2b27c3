(** The invariant of all reachable worlds, for file systems with an atomic
    rename: committed metadata is complete, numbered without gaps, refers to
    complete files only and never changes; every running call is what it
    should be. *)
From Coq Require Import String.
From Coq Require Import NArith List Bool PeanoNat Lia ZifyN Relations.
From Verif Require Import StoreModel StoreSpec StoreNameProofs StoreClosureProofs
  StoreFileProofs.
Import ListNotations.
Local Open Scope nat_scope.

Section Inv.
Context {Bag Custom : Type}.
Notation files := (@files Bag Custom).
Notation to_add := (@to_add Bag Custom).
Notation meta := (@meta Custom).
Notation manager := (@manager Custom).
Notation world := (@world Bag Custom).
Notation call := (@call Bag Custom).
Notation task := (@task Bag Custom).
Notation after := (@after Bag Custom).
Notation output := (@output Bag Custom).
Notation commit := (@commit Bag Custom).
Notation job := (@job Bag).

(** ** Statement *)

Definition manager_ok (fs : files) (g : manager) : Prop :=
  look fs (g_dir g, MetaFile (m_number (g_meta g))) = Some (MetaContent (g_meta g)).

(** Every manager has complete bags. *)
Definition manager_bags (fs : files) (g : manager) (l : list to_add) : Prop :=
  manager_ok fs g /\ stored fs (g_dir g) (g_meta g) = Some l /\ items_ok l.

Definition selects (l : list to_add) (names : list string) (deps : bool)
  (sel : list to_add) : Prop :=
  (forall s, In s names -> In s (map a_name l)) /\ selection l names deps sel.

Definition extract_ok (fs : files) (c : call) (ms : list manager)
  (bags : list to_add) (d : dir) : Prop :=
  exists i names deps g l sel,
    c = ExtractBags i names deps d /\ nth_error ms i = Some g
    /\ manager_bags fs g l /\ selects l names deps sel
    /\ bags = map without_custom sel.

Definition branch_ok (fs : files) (c : call) (ms : list manager)
  (m : meta) (d : dir) : Prop :=
  exists i names deps g l sel,
    c = CreateBranch i names deps d /\ nth_error ms i = Some g
    /\ manager_bags fs g l /\ selects l names deps sel
    /\ m_number m = 0%N /\ stored fs d m = Some sel.

Definition new_ok (fs : files) (c : call) (ms : list manager) (d : dir)
  (k : after) : Prop :=
  match k with
  | AfterNew => c = CreateNew d
  | AfterExtractNew bags => extract_ok fs c ms bags d
  | _ => False
  end.

Definition add_ok (fs : files) (c : call) (ms : list manager) (g : manager)
  (bags : list to_add) (k : after) : Prop :=
  match k with
  | AfterAdd i g' bags' =>
      g' = g /\ bags' = bags /\ c = AddBags i bags /\ nth_error ms i = Some g
  | AfterExtractAdd bags' =>
      bags' = bags /\ g_meta g = initial_meta /\ extract_ok fs c ms bags (g_dir g)
  | _ => False
  end
  /\ exists l, manager_bags fs g l /\ items_ok (l ++ bags).

Definition commit_ok (fs : files) (c : call) (ms : list manager) (d : dir)
  (m : meta) (k : after) : Prop :=
  match k with
  | AfterNew | AfterExtractNew _ => new_ok fs c ms d k /\ m = initial_meta
  | AfterAdd _ _ bags | AfterExtractAdd bags =>
      exists g u,
        g_dir g = d /\ m = extended_meta (g_meta g) u bags
        /\ add_ok fs c ms g bags k
        /\ stored_entries fs d (new_entries u 0 bags) = Some bags
  | AfterBranch => branch_ok fs c ms m d
  end.

Definition job_ok (fs : files) (d : dir) (j : job) : Prop :=
  match j_phase j with
  | ToCheck | ToOpen => look fs (d, j_file j) = None
  | ToWrite => look fs (d, j_file j) = Some Partial
  | Written => look fs (d, j_file j) = Some (BagContent (j_bag j))
  | Broken => True
  end.

Definition loading_call (c : call) (i : nat) (names : list string) (deps : bool)
  (p : purpose) : Prop :=
  match p with
  | ForLoad => c = LoadBags i names deps
  | ForMinimal => c = GetMinimalBag i names deps
  | ForExtract d => c = ExtractBags i names deps d
  end.

Definition loading_ok (fs : files) (c : call) (ms : list manager) (g : manager)
  (todo : list string) (loaded : list (string * Bag)) (p : purpose) : Prop :=
  exists i names deps l,
    loading_call c i names deps p /\ nth_error ms i = Some g
    /\ manager_bags fs g l
    /\ (forall s, In s names -> In s (map a_name l))
    /\ NoDup (map fst loaded ++ todo)
    /\ (forall x, In x (map fst loaded ++ todo)
                  <-> entries_needed (g_meta g) names deps x)
    /\ loaded_ok l loaded.

Definition task_ok (fs : files) (c : call) (ms : list manager) (tk : task) : Prop :=
  match tk with
  | Begun => True
  | NewExists d k | NewMakeDirs d k | NewGlob d k => new_ok fs c ms d k
  | PersistExists d m k | PersistOpen d m k => commit_ok fs c ms d m k
  | PersistWrite d m u k =>
      commit_ok fs c ms d m k /\ look fs (d, TempFile (m_number m) u) = Some Partial
  | PersistRename d m u k =>
      commit_ok fs c ms d m k
      /\ look fs (d, TempFile (m_number m) u) = Some (MetaContent m)
  | PersistRenameNow _ _ _ _ => False (* not with an atomic rename *)
  | FromExists d | FromGlob d | FromLatest d => c = CreateFromDir d
  | FromRead d f =>
      c = CreateFromDir d
      /\ exists n x, f = MetaFile n /\ look fs (d, MetaFile n) = Some x
  | AddStart g bags k => add_ok fs c ms g bags k
  | Writing g bags u jobs k =>
      add_ok fs c ms g bags k
      /\ map j_file jobs = map j_file (new_jobs u 0 bags)
      /\ map j_bag jobs = map a_bag bags
      /\ Forall (job_ok fs (g_dir g)) jobs
  | Loading g todo loaded p => loading_ok fs c ms g todo loaded p
  | OutExists d o | OutMakeDirs d o | OutGlob d o =>
      match o with
      | OutExtract bags => extract_ok fs c ms bags d
      | OutBranch m => branch_ok fs c ms m d
      end
  end.

(** The fresh identifier whose files the task is writing *)
Definition owned (tk : task) : option uuid :=
  match tk with
  | PersistWrite _ _ u _ | PersistRename _ _ u _ | PersistRenameNow _ _ u _
  | Writing _ _ u _ _ => Some u
  | _ => None
  end.
Definition owns (w : world) (t : nat) (u : uuid) : Prop :=
  exists c tk, running (w_threads w t) = Some (c, tk) /\ owned tk = Some u.

Definition uuid_of (f : fname) : option uuid :=
  match f with
  | BagFile u _ | TempFile _ u => Some u
  | MetaFile _ => None
  end.

Definition count (log : list commit) (d : dir) : nat := length (changes_of d log).

Definition replay_first (n : nat) (log : list commit) (d : dir)
  : option (list to_add) :=
  fold_left apply_change (firstn n (changes_of d log)) None.

Definition meta_inv (fs : files) (log : list commit) : Prop :=
  forall d n,
    if (n <? N.of_nat (count log d))%N
    then exists m l,
      look fs (d, MetaFile n) = Some (MetaContent m) /\ m_number m = n
      /\ stored fs d m = Some l /\ items_ok l
      /\ replay_first (S (N.to_nat n)) log d = Some l
    else look fs (d, MetaFile n) = None.

Definition numbers_inv (log : list commit) : Prop :=
  forall d, map c_number (filter (fun c => String.eqb (c_dir c) d) log)
            = map N.of_nat (seq 0 (count log d)).

Definition thread_ok (fs : files) (th : thread) : Prop :=
  (forall g, In g (managers th) -> exists l, manager_bags fs g l)
  /\ match running th with
     | None => True
     | Some (c, tk) => task_ok fs c (managers th) tk
     end.

Record inv (w : world) : Prop := {
  i_meta : meta_inv (w_files w) (w_log w);
  i_numbers : numbers_inv (w_log w);
  i_used : forall d f u, look (w_files w) (d, f) <> None -> uuid_of f = Some u ->
    In u (w_used w);
  i_cache : forall p k q b, In ((k, q), b) (w_caches w p) ->
    look (w_files w) q = Some (BagContent b);
  i_threads : forall t, thread_ok (w_files w) (w_threads w t);
  i_owned : forall t t' u, owns w t u -> owns w t' u -> t = t';
  i_owned_used : forall t u, owns w t u -> In u (w_used w)
}.

(** ** Stability *)

Lemma manager_ok_keeps fs fs' g : keeps fs fs' -> manager_ok fs g -> manager_ok fs' g.
Proof. intros K. unfold manager_ok. apply (proj2 K). Qed.

Lemma manager_bags_keeps fs fs' g l :
  keeps fs fs' -> manager_bags fs g l -> manager_bags fs' g l.
Proof.
  intros K (A & B & C). split; [eapply manager_ok_keeps; eauto|]. split; [|exact C].
  eapply stored_keeps; eauto.
Qed.

Lemma extract_ok_keeps fs fs' c ms bags d :
  keeps fs fs' -> extract_ok fs c ms bags d -> extract_ok fs' c ms bags d.
Proof.
  intros K (i & names & deps & g & l & sel & A & B & C & D & E).
  exists i, names, deps, g, l, sel. split; [exact A|]. split; [exact B|].
  split; [eapply manager_bags_keeps; eauto|auto].
Qed.

Lemma branch_ok_keeps fs fs' c ms m d :
  keeps fs fs' -> branch_ok fs c ms m d -> branch_ok fs' c ms m d.
Proof.
  intros K (i & names & deps & g & l & sel & A & B & C & D & E & F).
  exists i, names, deps, g, l, sel. split; [exact A|]. split; [exact B|].
  split; [eapply manager_bags_keeps; eauto|]. split; [exact D|]. split; [exact E|].
  eapply stored_keeps; eauto.
Qed.

Lemma new_ok_keeps fs fs' c ms d k :
  keeps fs fs' -> new_ok fs c ms d k -> new_ok fs' c ms d k.
Proof. intros K. destruct k; cbn; auto. now apply extract_ok_keeps. Qed.

Lemma add_ok_keeps fs fs' c ms g bags k :
  keeps fs fs' -> add_ok fs c ms g bags k -> add_ok fs' c ms g bags k.
Proof.
  intros K [A (l & B & C)]. split.
  - destruct k; cbn in *; auto. destruct A as (A1 & A2 & A3).
    split; [exact A1|]. split; [exact A2|]. eapply extract_ok_keeps; eauto.
  - exists l. split; [eapply manager_bags_keeps; eauto|exact C].
Qed.

Lemma commit_ok_keeps fs fs' c ms d m k :
  keeps fs fs' -> commit_ok fs c ms d m k -> commit_ok fs' c ms d m k.
Proof.
  intros K. destruct k; cbn [commit_ok].
  - intros [A B]. split; [eapply new_ok_keeps; eauto|exact B].
  - intros (g' & u & A & B & C & D). exists g', u. split; [exact A|]. split; [exact B|].
    split; [eapply add_ok_keeps; eauto|eapply stored_entries_keeps; eauto].
  - intros [A B]. split; [eapply new_ok_keeps; eauto|exact B].
  - intros (g' & u & A & B & C & D). exists g', u. split; [exact A|]. split; [exact B|].
    split; [eapply add_ok_keeps; eauto|eapply stored_entries_keeps; eauto].
  - now apply branch_ok_keeps.
Qed.

Lemma loading_ok_keeps fs fs' c ms g todo loaded p :
  keeps fs fs' -> loading_ok fs c ms g todo loaded p ->
  loading_ok fs' c ms g todo loaded p.
Proof.
  intros K (i & names & deps & l & A & B & C & D).
  exists i, names, deps, l. split; [exact A|]. split; [exact B|].
  split; [eapply manager_bags_keeps; eauto|exact D].
Qed.

(** Paths with the identifier of the task keep their contents. *)
Definition same_for (u : option uuid) (fs fs' : files) : Prop :=
  forall d f, uuid_of f <> None -> uuid_of f = u -> look fs' (d, f) = look fs (d, f).

Lemma new_jobs_uuid u (bags : list to_add) : forall i f,
  In f (map j_file (new_jobs u i bags)) -> uuid_of f = Some u.
Proof.
  induction bags as [|b bags IH]; intros i f I; [easy|]. cbn in I.
  destruct I as [ <- |I]; [reflexivity|]. eapply IH; eauto.
Qed.

Lemma task_ok_keeps fs fs' c ms tk :
  keeps fs fs' -> same_for (owned tk) fs fs' -> task_ok fs c ms tk -> task_ok fs' c ms tk.
Proof.
  intros K S. destruct tk as [|d k|d k|d k|d m k|d m k|d m u k|d m u k|d m u k
    |d|d|d|d f|g bags k|g bags u jobs k|g todo loaded p|d o|d o|d o]; cbn [task_ok].
  - auto.
  - now apply new_ok_keeps.
  - now apply new_ok_keeps.
  - now apply new_ok_keeps.
  - now apply commit_ok_keeps.
  - now apply commit_ok_keeps.
  - intros [A B]. split; [eapply commit_ok_keeps; eauto|].
    rewrite S; [exact B|cbn; discriminate|reflexivity].
  - intros [A B]. split; [eapply commit_ok_keeps; eauto|].
    rewrite S; [exact B|cbn; discriminate|reflexivity].
  - auto.
  - auto.
  - auto.
  - auto.
  - intros [A (n & x & B & C)]. split; [exact A|]. exists n, x. split; [exact B|].
    now apply (proj2 K).
  - now apply add_ok_keeps.
  - intros (A & B & C & D). split; [eapply add_ok_keeps; eauto|]. split; [exact B|].
    split; [exact C|]. rewrite Forall_forall in *. intros j J. specialize (D j J).
    assert (U : uuid_of (j_file j) = Some u).
    { apply (new_jobs_uuid u bags 0). rewrite <- B. now apply in_map. }
    unfold job_ok in *. rewrite S; [exact D|rewrite U; discriminate|exact U].
  - now apply loading_ok_keeps.
  - destruct o; [now apply extract_ok_keeps|now apply branch_ok_keeps].
  - destruct o; [now apply extract_ok_keeps|now apply branch_ok_keeps].
  - destruct o; [now apply extract_ok_keeps|now apply branch_ok_keeps].
Qed.

Lemma same_for_refl u fs : same_for u fs fs.
Proof. intros d f _ _. reflexivity. Qed.

Lemma meta_inv_keeps fs fs' log :
  keeps fs fs' ->
  (forall d n, look fs (d, MetaFile n) = None -> look fs' (d, MetaFile n) = None) ->
  meta_inv fs log -> meta_inv fs' log.
Proof.
  intros K N M d n. specialize (M d n).
  destruct (n <? N.of_nat (count log d))%N; [|auto].
  destruct M as (m & l & A & B & C & D). exists m, l.
  split; [now apply (proj2 K)|]. split; [exact B|].
  split; [eapply stored_keeps; eauto|exact D].
Qed.

(** ** Steps that commit nothing *)

Lemma inv_step (w w' : world) (t : nat) :
  inv w ->
  keeps (w_files w) (w_files w') ->
  (forall d n, look (w_files w) (d, MetaFile n) = None ->
               look (w_files w') (d, MetaFile n) = None) ->
  w_log w' = w_log w ->
  incl (w_used w) (w_used w') ->
  (forall t', t' <> t -> w_threads w' t' = w_threads w t') ->
  (* files change under the identifier of [t] or a fresh one *)
  (forall d f, look (w_files w') (d, f) = look (w_files w) (d, f)
     \/ exists u, uuid_of f = Some u /\ In u (w_used w')
          /\ (owns w t u \/ ~ In u (w_used w))) ->
  (forall u, owns w' t u -> In u (w_used w') /\ (owns w t u \/ ~ In u (w_used w))) ->
  (forall p k q b, In ((k, q), b) (w_caches w' p) ->
     look (w_files w') q = Some (BagContent b)) ->
  thread_ok (w_files w') (w_threads w' t) ->
  inv w'.
Proof.
  intros I K KN L U T F O C TH.
  assert (OT : forall t' u, t' <> t -> owns w' t' u -> owns w t' u).
  { intros t' u D (c & tk & R & E). exists c, tk. rewrite T in R by exact D. auto. }
  constructor.
  - rewrite L. eapply meta_inv_keeps; eauto using i_meta.
  - rewrite L. apply (i_numbers w I).
  - intros d f u P E.
    destruct (F d f) as [Z|(u' & E' & A & _)].
    + apply U. rewrite Z in P. eapply (i_used w I); eauto.
    + rewrite E in E'. injection E' as <-. exact A.
  - exact C.
  - intros t'. destruct (Nat.eq_dec t' t) as [ -> |D]; [exact TH|].
    rewrite T by exact D. destruct (i_threads w I t') as [A B]. split.
    + intros g G. destruct (A g G) as (l & M). exists l. eapply manager_bags_keeps; eauto.
    + destruct (running (w_threads w t')) as [[c tk]|] eqn:R; [|exact Logic.I].
      eapply task_ok_keeps; [exact K| |exact B].
      intros d f NN E.
      destruct (uuid_of f) as [u|] eqn:EU; [|congruence].
      assert (OW : owns w t' u) by (exists c, tk; auto).
      destruct (F d f) as [Z|(u' & E' & _ & [H|H])]; [exact Z| |].
      * rewrite EU in E'. injection E' as <-. exfalso. apply D. eapply (i_owned w I); eauto.
      * rewrite EU in E'. injection E' as <-. exfalso. apply H.
        eapply (i_owned_used w I); eauto.
  - intros t1 t2 u O1 O2.
    destruct (Nat.eq_dec t1 t) as [E1|E1], (Nat.eq_dec t2 t) as [E2|E2]; subst; auto.
    + destruct (O u O1) as (_ & [H|H]).
      * apply OT in O2; [|exact E2]. eapply (i_owned w I); eauto.
      * exfalso. apply H. eapply (i_owned_used w I). apply OT in O2; eauto.
    + destruct (O u O2) as (_ & [H|H]).
      * apply OT in O1; [|exact E1]. eapply (i_owned w I); eauto.
      * exfalso. apply H. eapply (i_owned_used w I). apply OT in O1; eauto.
    + eapply (i_owned w I); eauto.
  - intros t' u OW. destruct (Nat.eq_dec t' t) as [ -> |D].
    + exact (proj1 (O u OW)).
    + apply U. eapply (i_owned_used w I). eauto.
Qed.


Lemma set_thread_same (w : world) t th : w_threads (set_thread w t th) t = th.
Proof. cbn. now rewrite Nat.eqb_refl. Qed.
Lemma set_thread_other (w : world) t th t' :
  t' <> t -> w_threads (set_thread w t th) t' = w_threads w t'.
Proof. intros D. cbn. apply Nat.eqb_neq in D. now rewrite D. Qed.

(** the thread moves on, files unchanged *)
Lemma inv_set_thread (w : world) t th :
  inv w -> thread_ok (w_files w) th ->
  (forall c tk u, running th = Some (c, tk) -> owned tk = Some u -> owns w t u) ->
  inv (set_thread w t th).
Proof.
  intros I TH O. apply (inv_step w _ t); auto.
  - apply keeps_refl.
  - apply incl_refl.
  - intros t' D. now apply set_thread_other.
  - intros u (c & tk & R & E). rewrite set_thread_same in R.
    assert (OW : owns w t u) by eauto.
    split; [|auto]. eapply (i_owned_used w I); eauto.
  - apply (i_cache w I).
  - rewrite set_thread_same. exact TH.
Qed.

Lemma inv_goto (w : world) t c tk tk' :
  inv w -> running (w_threads w t) = Some (c, tk) ->
  task_ok (w_files w) c (managers (w_threads w t)) tk' ->
  (owned tk' = None \/ owned tk' = owned tk) ->
  inv (goto w t tk').
Proof.
  intros I R OK O. unfold goto. rewrite R. apply inv_set_thread; [exact I| |].
  - split; [|exact OK]. cbn. apply (i_threads w I t).
  - cbn. intros c' tk'' u [= <- <-] E. exists c, tk. split; [exact R|].
    destruct O; congruence.
Qed.

Lemma inv_return (w : world) t r : inv w -> inv (return_ w t r).
Proof.
  intros I. apply inv_set_thread; [exact I| |easy].
  split; [|exact Logic.I]. apply (i_threads w I t).
Qed.

Lemma inv_raise (w : world) t e : inv w -> inv (raise_ w t e).
Proof. apply inv_return. Qed.

Lemma inv_return_manager (w : world) t g l :
  inv w -> manager_bags (w_files w) g l -> inv (return_manager w t g).
Proof.
  intros I M. apply inv_set_thread; [exact I| |easy].
  split; [|exact Logic.I]. cbn. intros g' G. apply in_app_iff in G as [G|[ <- |[]]]; [|eauto].
  now apply (i_threads w I t).
Qed.

Lemma inv_add_dir (w : world) d : inv w -> inv (add_dir w d).
Proof. intros [A B C D E F G]. constructor; assumption. Qed.

Lemma inv_set_cache (w : world) p c :
  inv w ->
  (forall k q b, In ((k, q), b) c -> look (w_files w) q = Some (BagContent b)) ->
  inv (set_cache w p c).
Proof.
  intros [A B C D E F G] H. constructor; try assumption. cbn. intros p' k q b.
  destruct (Nat.eqb p' p); eauto.
Qed.

Lemma fresh_spec (w : world) u : fresh w u = true -> ~ In u (w_used w).
Proof.
  unfold fresh. rewrite andb_true_iff, negb_true_iff. intros [_ H] I.
  assert (existsb (String.eqb u) (w_used w) = true); [|congruence].
  apply existsb_exists. exists u. split; [exact I|apply String.eqb_refl].
Qed.

(** an identifier is drawn, files unchanged *)
Lemma inv_goto_uuid (w : world) t c tk tk' u :
  inv w -> running (w_threads w t) = Some (c, tk) -> ~ In u (w_used w) ->
  task_ok (w_files w) c (managers (w_threads w t)) tk' -> owned tk' = Some u ->
  inv (goto (use_uuid w u) t tk').
Proof.
  intros I R FR OK O. unfold goto. cbn [w_threads use_uuid]. rewrite R.
  apply (inv_step w _ t); auto.
  - apply keeps_refl.
  - intros x X. now right.
  - intros t' D. now apply (set_thread_other (use_uuid w u)).
  - intros u' (c' & tk'' & R' & E). rewrite set_thread_same in R'. cbn in R'.
    injection R' as <- <-. rewrite O in E. injection E as <-.
    split; [now left|auto].
  - apply (i_cache w I).
  - rewrite set_thread_same. split; [|exact OK]. cbn. apply (i_threads w I t).
Qed.

(** one file of the running task (with its old or a fresh identifier) is
    written; it was absent or partial *)
Lemma keeps_put (fs : files) d f c :
  uuid_of f <> None ->
  (look fs (d, f) = None \/ look fs (d, f) = Some Partial) ->
  keeps fs (put (d, f) c fs).
Proof.
  intros U H. split.
  - intros p b L. rewrite look_put_other; [exact L|]. intros ->. destruct H; congruence.
  - intros d' n x L. rewrite look_put_other; [exact L|]. intros [= -> <-]. now apply U.
Qed.

Lemma inv_put (w w0 : world) t c tk tk' u d f x :
  inv w -> running (w_threads w t) = Some (c, tk) ->
  uuid_of f = Some u -> owned tk' = Some u ->
  (w0 = w /\ owned tk = Some u \/ w0 = use_uuid w u /\ ~ In u (w_used w)) ->
  (look (w_files w) (d, f) = None \/ look (w_files w) (d, f) = Some Partial) ->
  task_ok (put (d, f) x (w_files w)) c (managers (w_threads w t)) tk' ->
  inv (goto (set_files w0 (put (d, f) x (w_files w))) t tk').
Proof.
  intros I R U O' CASES P OK.
  assert (NU : uuid_of f <> None) by congruence.
  assert (W0 : w_threads w0 = w_threads w /\ w_caches w0 = w_caches w /\ w_log w0 = w_log w
    /\ incl (w_used w) (w_used w0) /\ In u (w_used w0)
    /\ (owns w t u \/ ~ In u (w_used w))).
  { destruct CASES as [[-> E]|[-> E]].
    - assert (OW : owns w t u) by (exists c, tk; auto).
      repeat (split; [reflexivity|]). split; [apply incl_refl|].
      split; [eapply (i_owned_used w I); eauto|auto].
    - repeat (split; [reflexivity|]). split; [intros y Y; now right|].
      split; [now left|auto]. }
  destruct W0 as (W1 & W2 & W3 & W4 & W5 & W6).
  unfold goto. cbn [w_threads set_files]. rewrite W1, R.
  apply (inv_step w _ t); auto; cbn [w_files w_log w_used w_caches set_thread set_files].
  - now apply keeps_put.
  - intros d' n L. rewrite look_put_other; [exact L|]. intros [= -> <-]. now apply NU.
  - intros t' D. rewrite <- W1. now apply (set_thread_other (set_files w0 _)).
  - intros d' f'. destruct (path_dec (d', f') (d, f)) as [E|E].
    + injection E as -> ->. right. exists u. auto.
    + left. now rewrite look_put_other.
  - intros u' (c' & tk'' & R' & E). rewrite set_thread_same in R'. cbn in R'.
    injection R' as <- <-. rewrite O' in E. injection E as <-. auto.
  - rewrite W2. intros p k q b IN. apply (proj1 (keeps_put _ d f x NU P)).
    eapply (i_cache w I); eauto.
  - rewrite set_thread_same. split; [|exact OK]. cbn. intros g G.
    destruct (proj1 (i_threads w I t) g G) as (l & M). exists l.
    eapply manager_bags_keeps; [|exact M]. now apply keeps_put.
Qed.

(** ** Commits *)

Lemma changes_of_snoc (log : list commit) c d :
  changes_of d (log ++ [c])
  = if String.eqb (c_dir c) d then changes_of d log ++ [c_change c] else changes_of d log.
Proof.
  unfold changes_of. rewrite filter_app, map_app. cbn.
  destruct (String.eqb (c_dir c) d); cbn; [reflexivity|apply app_nil_r].
Qed.

Lemma count_snoc (log : list commit) c d :
  count (log ++ [c]) d = if String.eqb (c_dir c) d then S (count log d) else count log d.
Proof.
  unfold count. rewrite changes_of_snoc. destruct (String.eqb (c_dir c) d); [|reflexivity].
  rewrite app_length. cbn. lia.
Qed.

Lemma replay_first_all (log : list commit) d n :
  count log d <= n -> replay_first n log d = replay log d.
Proof.
  intros L. unfold replay_first, replay. rewrite firstn_all2; [reflexivity|exact L].
Qed.

Lemma replay_first_snoc (log : list commit) c d n :
  n <= count log d -> replay_first n (log ++ [c]) d = replay_first n log d.
Proof.
  intros L. unfold replay_first. rewrite changes_of_snoc.
  destruct (String.eqb (c_dir c) d); [|reflexivity].
  rewrite firstn_app. unfold count in L.
  replace (n - length (changes_of d log)) with 0 by lia. cbn. now rewrite app_nil_r.
Qed.

Lemma replay_snoc (log : list commit) c d :
  replay (log ++ [c]) d
  = if String.eqb (c_dir c) d then apply_change (replay log d) (c_change c) else replay log d.
Proof.
  unfold replay. rewrite changes_of_snoc. destruct (String.eqb (c_dir c) d); [|reflexivity].
  now rewrite fold_left_app.
Qed.

Lemma keeps_move (fs : files) d n u m :
  look fs (d, TempFile n u) = Some (MetaContent m) ->
  look fs (d, MetaFile n) = None ->
  keeps fs (move (d, TempFile n u) (d, MetaFile n) fs).
Proof.
  intros T N. assert (D : (d, TempFile n u) <> (d, MetaFile n)) by discriminate.
  split.
  - intros p b L. rewrite (look_move _ _ _ _ _ T D).
    rewrite path_eqb_neq by (intros <-; congruence).
    rewrite path_eqb_neq by (intros <-; congruence). exact L.
  - intros d' k c L. rewrite (look_move _ _ _ _ _ T D).
    rewrite path_eqb_neq by (intros [= <- <-]; congruence).
    rewrite path_eqb_neq by (intros [=]). exact L.
Qed.

Lemma inv_commit (w : world) t c d m u k tk0 chg l th :
  inv w -> running (w_threads w t) = Some (c, tk0) -> owned tk0 = Some u ->
  look (w_files w) (d, TempFile (m_number m) u) = Some (MetaContent m) ->
  look (w_files w) (d, MetaFile (m_number m)) = None ->
  let fs' := move (d, TempFile (m_number m) u) (d, MetaFile (m_number m)) (w_files w) in
  m_number m = N.of_nat (count (w_log w) d) ->
  stored (w_files w) d m = Some l -> items_ok l ->
  apply_change (replay (w_log w) d) chg = Some l ->
  thread_ok fs' th ->
  (forall c tk, running th = Some (c, tk) -> owned tk = None) ->
  inv (set_thread (log_commit (set_files w fs') (Commit k d (m_number m) chg)) t th).
Proof.
  intros I R O T N fs' NUM ST OK CH TH OTH.
  assert (K : keeps (w_files w) fs') by (eapply keeps_move; eauto).
  assert (D : (d, TempFile (m_number m) u) <> (d, MetaFile (m_number m))) by discriminate.
  assert (LK : forall r, look fs' r
    = if path_eqb (d, MetaFile (m_number m)) r then Some (MetaContent m)
      else if path_eqb (d, TempFile (m_number m) u) r then None else look (w_files w) r)
    by (intros r; exact (look_move _ _ _ _ r T D)).
  constructor; cbn [w_files w_log w_used w_caches set_thread log_commit set_files].
  - intros d' n. rewrite count_snoc. cbn [c_dir].
    pose proof (i_meta w I d' n) as M.
    destruct (String.eqb_spec d d') as [<-|DD].
    + assert (CASES : (n < N.of_nat (count (w_log w) d) \/ n = N.of_nat (count (w_log w) d)
                       \/ N.of_nat (count (w_log w) d) < n)%N) by lia.
      destruct CASES as [C|[C|C]].
      * replace (n <? N.of_nat (S (count (w_log w) d)))%N with true by lia.
        replace (n <? N.of_nat (count (w_log w) d))%N with true in M by lia.
        destruct M as (m' & l' & A1 & A2 & A3 & A4 & A5). exists m', l'.
        split; [now apply (proj2 K)|]. split; [exact A2|].
        split; [eapply stored_keeps; eauto|]. split; [exact A4|].
        rewrite replay_first_snoc by lia. exact A5.
      * replace (n <? N.of_nat (S (count (w_log w) d)))%N with true by lia.
        exists m, l. split.
        { rewrite LK, C, <- NUM, path_eqb_refl. reflexivity. }
        split; [congruence|]. split; [eapply stored_keeps; eauto|]. split; [exact OK|].
        rewrite replay_first_all.
        { rewrite replay_snoc. cbn [c_dir c_change]. rewrite String.eqb_refl. exact CH. }
        { rewrite count_snoc. cbn [c_dir]. rewrite String.eqb_refl. lia. }
      * replace (n <? N.of_nat (S (count (w_log w) d)))%N with false by lia.
        replace (n <? N.of_nat (count (w_log w) d))%N with false in M by lia.
        rewrite LK. rewrite path_eqb_neq by (intros [= E]; lia).
        rewrite path_eqb_neq by (intros [=]). exact M.
    + destruct (n <? N.of_nat (count (w_log w) d'))%N eqn:C.
      * destruct M as (m' & l' & A1 & A2 & A3 & A4 & A5). exists m', l'.
        split; [now apply (proj2 K)|]. split; [exact A2|].
        split; [eapply stored_keeps; eauto|]. split; [exact A4|].
        rewrite replay_first_snoc by lia. exact A5.
      * rewrite LK. rewrite path_eqb_neq by congruence.
        rewrite path_eqb_neq by congruence. exact M.
  - intros d'. rewrite filter_app, map_app, count_snoc. cbn [filter c_dir].
    rewrite (i_numbers w I d').
    destruct (String.eqb_spec d d') as [<-|DD]; cbn [map app]; [|apply app_nil_r].
    rewrite seq_S, map_app. cbn. congruence.
  - intros d' f u' P E. rewrite LK in P.
    destruct (path_eqb (d, MetaFile (m_number m)) (d', f)) eqn:E1.
    + apply path_eqb_spec in E1. injection E1 as _ <-. discriminate.
    + destruct (path_eqb (d, TempFile (m_number m) u) (d', f)); [now contradict P|].
      eapply (i_used w I); eauto.
  - intros p k' q b IN. apply (proj1 K). eapply (i_cache w I); eauto.
  - intros t'. destruct (Nat.eq_dec t' t) as [ -> |DT].
    + rewrite set_thread_same. exact TH.
    + rewrite set_thread_other by exact DT. cbn [w_threads log_commit set_files].
      destruct (i_threads w I t') as [A B]. split.
      * intros g G. destruct (A g G) as (l' & M). exists l'. eapply manager_bags_keeps; eauto.
      * destruct (running (w_threads w t')) as [[c' tk]|] eqn:R'; [|exact Logic.I].
        eapply task_ok_keeps; [exact K| |exact B].
        intros d' f NN E. rewrite LK.
        rewrite path_eqb_neq by (intros [= <- <-]; now apply NN).
        rewrite path_eqb_neq; [reflexivity|]. intros [= <- <-]. cbn in E.
        apply DT. eapply (i_owned w I); [exists c', tk|exists c, tk0]; eauto.
  - assert (OT : forall t' u', t' <> t ->
      owns (set_thread (log_commit (set_files w fs') (Commit k d (m_number m) chg)) t th) t' u' ->
      owns w t' u').
    { intros t' u' DT (c' & tk & R' & E). exists c', tk.
      rewrite set_thread_other in R' by exact DT. auto. }
    assert (ON : forall u', ~ owns (set_thread (log_commit (set_files w fs')
                   (Commit k d (m_number m) chg)) t th) t u').
    { intros u' (c' & tk & R' & E). rewrite set_thread_same in R'.
      rewrite (OTH c' tk R') in E. discriminate. }
    intros t1 t2 u' O1 O2.
    destruct (Nat.eq_dec t1 t) as [E1|E1]; [subst; now apply ON in O1|].
    destruct (Nat.eq_dec t2 t) as [E2|E2]; [subst; now apply ON in O2|].
    eapply (i_owned w I); eauto.
  - intros t' u' (c' & tk & R' & E).
    destruct (Nat.eq_dec t' t) as [ -> |DT].
    + rewrite set_thread_same in R'. rewrite (OTH c' tk R') in E. discriminate.
    + rewrite set_thread_other in R' by exact DT.
      eapply (i_owned_used w I). exists c', tk. eauto.
Qed.

End Inv.
