(** Every step preserves the invariant, and what a finished call has done *)
From Coq Require Import String.
From Coq Require Import NArith List Bool PeanoNat Lia ZifyN Relations Permutation.
From Verif Require Import StoreModel StoreSpec StoreNameProofs StoreClosureProofs
  StoreFileProofs StoreInvProofs.
Import ListNotations.
Local Open Scope nat_scope.

Section Steps.
Context {Bag Custom : Type}.
Notation files := (@files Bag Custom).
Notation to_add := (@to_add Bag Custom).
Notation meta := (@meta Custom).
Notation manager := (@manager Custom).
Notation world := (@world Bag Custom).
Notation call := (@call Bag Custom).
Notation task := (@task Bag Custom).
Notation after := (@after Bag Custom).
Notation result := (@result Bag).
Notation commit := (@commit Bag Custom).
Notation job := (@job Bag).
Variable pick : list string -> nat.
Variable process_of : nat -> nat.

(** ** What a finished call has done *)

(** A bag request for [names] through the [i]-th manager selects [sel]. *)
Definition request (w : world) (ms : list manager) (i : nat) (names : list string)
  (deps : bool) (sel : list to_add) : Prop :=
  exists g l, nth_error ms i = Some g /\ bags_of w g = Some l
    /\ (forall s, In s names -> In s (map a_name l))
    /\ selection l names deps sel.

Definition unchanged (w w' : world) (t : nat) (ms : list manager) : Prop :=
  managers (w_threads w' t) = ms /\ w_log w' = w_log w.

(** some writer has committed the version after that of [g] *)
Definition outdated (w : world) (g : manager) : Prop :=
  exists c, In c (w_log w) /\ c_dir c = g_dir g
    /\ c_number c = (m_number (g_meta g) + 1)%N.

Definition succeeded (w w' : world) (t : nat) (c : call) (ms : list manager)
  (r : result) : Prop :=
  match c with
  | CreateNew d =>
      r = NewManager
      /\ managers (w_threads w' t) = ms ++ [Manager d initial_meta]
      /\ w_log w' = w_log w ++ [Commit t d 0 Created]
  | CreateFromDir d =>
      r = NewManager /\ w_log w' = w_log w
      /\ exists m, managers (w_threads w' t) = ms ++ [Manager d m]
  | AddBags i bags =>
      r = Added
      /\ exists g l m, nth_error ms i = Some g /\ bags_of w g = Some l
           /\ managers (w_threads w' t) = replace_nth i (Manager (g_dir g) m) ms
           /\ bags_of w' (Manager (g_dir g) m) = Some (l ++ bags)
           /\ m_number m = (m_number (g_meta g) + 1)%N
           /\ replay (w_log w) (g_dir g) = Some l
           /\ w_log w' = w_log w ++ [Commit t (g_dir g) (m_number m) (BagsAdded bags)]
  | LoadBags i names deps =>
      unchanged w w' t ms
      /\ exists sel l, request w ms i names deps sel /\ r = Loaded l
           /\ Permutation l (map (fun x => (a_name x, a_bag x)) sel)
  | GetMinimalBag i names deps =>
      unchanged w w' t ms
      /\ exists sel, request w ms i names deps sel /\ r = Updated (map a_bag sel)
  | ExtractBags i names deps d =>
      r = Extracted /\ managers (w_threads w' t) = ms
      /\ exists sel, request w ms i names deps sel
           /\ replay (w_log w) d = Some []
           /\ w_log w' = w_log w ++ [Commit t d 1 (BagsAdded (map without_custom sel))]
  | CreateBranch i names deps d =>
      r = Branched /\ managers (w_threads w' t) = ms
      /\ exists sel, request w ms i names deps sel
           /\ w_log w' = w_log w ++ [Commit t d 0 (BranchOf sel)]
  end.

(** the errors that a call raises although no file operation failed *)
Definition cause (w : world) (c : call) (ms : list manager) (e : error) : Prop :=
  match c with
  | LoadBags _ _ _ | GetMinimalBag _ _ _ => False
  | AddBags i _ =>
      (e = AlreadyCommitted \/ e = FileExists)
      /\ (exists g, nth_error ms i = Some g /\ outdated w g)
      \/ e = IoError
  | _ => e <> UnknownBags /\ e <> KeyError /\ e <> UnknownDependency /\ e <> NameAlreadyAdded /\ e <> ReadError
  end.

Definition finished (w w' : world) (t : nat) (c : call) (ms : list manager) : Prop :=
  running (w_threads w' t) = None
  /\ match outcome (w_threads w' t) with
     | Failed e => unchanged w w' t ms /\ cause w c ms e
     | r => succeeded w w' t c ms r
     end.

Definition continues (w w' : world) (t : nat) (c : call) (ms : list manager) : Prop :=
  exists tk, running (w_threads w' t) = Some (c, tk)
    /\ managers (w_threads w' t) = ms
    /\ (w_log w' = w_log w
        \/ exists i names deps d, c = ExtractBags i names deps d
             /\ w_log w' = w_log w ++ [Commit t d 0 Created]).

Definition good (w w' : world) (t : nat) (c : call) (ms : list manager) : Prop :=
  inv w' /\ (continues w w' t c ms \/ finished w w' t c ms).

(** ** Facts from the invariant *)

Lemma meta_manager (w : world) d n x : inv w ->
  look (w_files w) (d, MetaFile n) = Some x ->
  exists m l, x = MetaContent m /\ m_number m = n
    /\ manager_bags (w_files w) (Manager d m) l
    /\ (n < N.of_nat (count (w_log w) d))%N
    /\ replay_first (S (N.to_nat n)) (w_log w) d = Some l.
Proof.
  intros I L. pose proof (i_meta w I d n) as M.
  destruct (n <? N.of_nat (count (w_log w) d))%N eqn:C; [|congruence].
  destruct M as (m & l & A & B & S & OK & RP). rewrite L in A. injection A as ->.
  exists m, l. split; [reflexivity|]. split; [exact B|].
  split; [|split; [lia|exact RP]]. split; [|split; [exact S|exact OK]].
  unfold manager_ok. cbn. rewrite B. exact L.
Qed.

Lemma commit_in_log (w : world) d n : inv w ->
  (n < N.of_nat (count (w_log w) d))%N ->
  exists c, In c (w_log w) /\ c_dir c = d /\ c_number c = n.
Proof.
  intros I L. pose proof (i_numbers w I d) as E.
  assert (H : In n (map N.of_nat (seq 0 (count (w_log w) d)))).
  { apply in_map_iff. exists (N.to_nat n). split; [lia|]. apply in_seq. lia. }
  rewrite <- E in H. apply in_map_iff in H as (c & A & B). apply filter_In in B as [B1 B2].
  apply String.eqb_eq in B2. eauto.
Qed.

Lemma meta_ok_items (fs : files) g l :
  manager_bags fs g l ->
  map of_item l = map of_entry (m_bags (g_meta g)) /\ meta_ok (g_meta g)
  /\ names_of (g_meta g) = map a_name l.
Proof.
  intros (_ & S & OK). pose proof (stored_entries_same _ _ _ _ S) as E.
  split; [exact E|]. split; [now apply (items_entries_ok l)|].
  symmetry. now apply map_of_name.
Qed.

(** ** Loading *)

Lemma loading_selection (fs : files) c ms g loaded p :
  loading_ok fs c ms g [] loaded p ->
  exists i names deps l sel,
    loading_call c i names deps p /\ nth_error ms i = Some g
    /\ manager_bags fs g l /\ (forall s, In s names -> In s (map a_name l))
    /\ selection l names deps sel
    /\ Permutation loaded (map (fun x => (a_name x, a_bag x)) sel)
    /\ bags_to_extract (g_meta g) loaded
         (canonical_topological_sorting (g_meta g) (map fst loaded))
       = Some (map without_custom sel).
Proof.
  intros (i & names & deps & l & A & B & C & D & N & H & LO).
  rewrite app_nil_r in *.
  destruct (meta_ok_items fs g l C) as (E & MO & NM).
  set (sel := filter (fun x => has_name (a_name x) (map fst loaded)) l).
  exists i, names, deps, l, sel. split; [exact A|]. split; [exact B|]. split; [exact C|].
  split; [exact D|]. split; [|split].
  - eapply selection_of_names; eauto.
  - apply NoDup_Permutation.
    + eapply NoDup_map_inv. exact N.
    + apply NoDup_map_inv with (f := fst). rewrite map_map. cbn.
      subst sel. apply NoDup_map_filter. apply C.
    + intros [s b]. split; intros I.
      * destruct (LO s b I) as (x & X & <- & <-). apply in_map_iff. exists x.
        split; [reflexivity|]. subst sel. apply filter_In. split; [exact X|].
        apply has_name_In. apply (in_map fst) in I. exact I.
      * apply in_map_iff in I as (x & [= <- <-] & X). subst sel.
        apply filter_In in X as [X1 X2]. apply has_name_In in X2.
        apply in_map_iff in X2 as ([s b] & F & X3). cbn in F. subst s.
        destruct (LO _ _ X3) as (y & Y & N1 & <-).
        pose proof (item_unique l y x (proj1 (proj2 (proj2 C))) Y X1 N1) as EQ. subst y.
        exact X3.
  - rewrite (sorting_ok pick).
    + rewrite NM, filter_names_map. fold sel.
      apply (bags_to_extract_ok _ l); [exact E|exact (proj2 (proj2 C))|exact LO| |].
      * intros x X. now apply filter_In in X.
      * intros x X. apply filter_In in X as [_ X]. now apply has_name_In.
    + exact (proj1 MO).
    + exact N.
    + intros x X. eapply needed_is_name; [exact MO| |apply H, X]. now rewrite NM.
Qed.

Lemma good_goto (w : world) t c tk tk' ms :
  inv w -> running (w_threads w t) = Some (c, tk) -> managers (w_threads w t) = ms ->
  task_ok (w_files w) c ms tk' ->
  (owned tk' = None \/ owned tk' = owned tk) ->
  good w (goto w t tk') t c ms.
Proof.
  intros I R M OK O. split.
  - eapply inv_goto; eauto. now rewrite M.
  - left. exists tk'. unfold goto. rewrite R.
    rewrite set_thread_same. cbn. auto.
Qed.

Lemma good_raise (w : world) t c tk e ms :
  inv w -> running (w_threads w t) = Some (c, tk) -> managers (w_threads w t) = ms ->
  cause w c ms e -> good w (raise_ w t e) t c ms.
Proof.
  intros I R M C. split; [now apply inv_raise|]. right. unfold raise_, return_. split.
  - rewrite set_thread_same. reflexivity.
  - rewrite set_thread_same. cbn. split; [|exact C]. split; [|reflexivity].
    rewrite set_thread_same. exact M.
Qed.

Lemma good_all_loaded (w0 w : world) t c tk g loaded p ms :
  inv w -> running (w_threads w t) = Some (c, tk) -> managers (w_threads w t) = ms ->
  w_log w = w_log w0 -> w_files w = w_files w0 ->
  loading_ok (w_files w) c ms g [] loaded p ->
  good w0 (all_loaded w t g loaded p) t c ms.
Proof.
  intros I R M L F LD.
  destruct (loading_selection _ _ _ _ _ _ LD) as
    (i & names & deps & l & sel & A & B & C & D & S & P & E).
  assert (RQ : request w0 ms i names deps sel).
  { exists g, l. split; [exact B|]. split; [|auto]. unfold bags_of. rewrite <- F. apply C. }
  destruct p as [| |d]; cbn [all_loaded loading_call] in *.
  - split; [now apply inv_return|]. right. split; [unfold return_; rewrite set_thread_same; reflexivity|].
    unfold return_ at 1. rewrite set_thread_same. cbn [outcome]. subst c. cbn [succeeded].
    split.
    + unfold unchanged, return_. rewrite set_thread_same. cbn. auto.
    + exists sel, loaded. auto.
  - rewrite E. split; [now apply inv_return|]. right.
    split; [unfold return_; rewrite set_thread_same; reflexivity|].
    unfold return_ at 1. rewrite set_thread_same. cbn [outcome]. subst c. cbn [succeeded].
    split.
    + unfold unchanged, return_. rewrite set_thread_same. cbn. auto.
    + exists sel. split; [exact RQ|]. f_equal. rewrite map_map. reflexivity.
  - rewrite E. split.
    + eapply inv_goto; [exact I|exact R| |left; reflexivity].
      cbn [task_ok]. rewrite M. exists i, names, deps, g, l, sel. unfold selects. auto 10.
    + left. exists (OutExists d (OutExtract (map without_custom sel))).
      unfold goto. rewrite R, set_thread_same. cbn. auto.
Qed.

Lemma cache_get_In (cc : @cache Bag) k b : cache_get cc k = Some b -> In (k, b) cc.
Proof.
  unfold cache_get. destruct (find _ cc) as [[k' b']|] eqn:F; [|discriminate].
  intros [= <-]. apply find_some in F as [F1 F2]. cbn in F2.
  unfold key_eqb in F2. apply andb_true_iff in F2 as [F2 F3].
  apply String.eqb_eq in F2. apply path_eqb_spec in F3.
  destruct k', k. cbn in *. now subst.
Qed.

Lemma from_cache_ok (w : world) p g l : inv w -> manager_bags (w_files w) g l ->
  forall names, (forall s, In s names -> In s (map a_name l)) ->
  exists found needed,
    from_cache (w_caches w p) g names = Some (found, needed)
    /\ Permutation (map fst found ++ needed) names /\ loaded_ok l found.
Proof.
  intros I M. induction names as [|s names IH]; intros H; cbn.
  - exists [], []. split; [reflexivity|]. split; [constructor|]. easy.
  - destruct IH as (found & needed & -> & P & LO); [intros x X; apply H; now right|].
    destruct (stored_path (w_files w) g l s) as (q & x & -> & X1 & X2 & X3);
      [apply M|apply H; now left|].
    destruct (cache_get (w_caches w p) (s, q)) as [b|] eqn:CG.
    + exists ((s, b) :: found), needed. split; [reflexivity|]. split.
      * cbn. now constructor.
      * intros s' b' [[= <- <-]|IN]; [|now apply LO]. exists x. split; [exact X1|].
        split; [exact X2|]. apply cache_get_In in CG. apply (i_cache w I) in CG. congruence.
    + exists found, (s :: needed). split; [reflexivity|]. split; [|exact LO].
      rewrite <- Permutation_middle. now constructor.
Qed.

(** [cause] for the start of a call *)
Definition start_cause (w : world) (c : call) (ms : list manager) (e : error) : Prop :=
  let unknown i names :=
    match nth_error ms i with
    | None => e = KeyError
    | Some g => e = UnknownBags
        /\ exists l s, bags_of w g = Some l /\ In s names /\ ~ In s (map a_name l)
    end in
  match c with
  | AddBags i bags =>
      match nth_error ms i with
      | None => e = KeyError
      | Some g => exists l, bags_of w g = Some l /\ ~ items_ok (l ++ bags)
      end
  | LoadBags i names _ | GetMinimalBag i names _ | ExtractBags i names _ _
  | CreateBranch i names _ _ => unknown i names
  | _ => False
  end.

Definition refused (w w' : world) (t : nat) (c : call) (ms : list manager) : Prop :=
  running (w_threads w' t) = None
  /\ exists e, outcome (w_threads w' t) = Failed e
       /\ unchanged w w' t ms /\ start_cause w c ms e.

Definition good_start (w w' : world) (t : nat) (c : call) (ms : list manager) : Prop :=
  inv w'
  /\ (continues w w' t c ms \/ refused w w' t c ms \/ finished w w' t c ms).

Lemma good_refused (w0 w : world) t c tk e ms :
  inv w -> running (w_threads w t) = Some (c, tk) -> managers (w_threads w t) = ms ->
  w_log w = w_log w0 ->
  start_cause w0 c ms e -> good_start w0 (raise_ w t e) t c ms.
Proof.
  intros I R M L C. split; [now apply inv_raise|]. right. left. split.
  - unfold raise_, return_. rewrite set_thread_same. reflexivity.
  - exists e. unfold raise_, return_. rewrite set_thread_same. split; [reflexivity|].
    split; [|exact C]. split; [|exact L]. rewrite set_thread_same. exact M.
Qed.

Lemma good_is_start w w' t c ms : good w w' t c ms -> good_start w w' t c ms.
Proof. intros [A [B|B]]; split; auto. Qed.

Lemma names_dec (names all : list string) :
  (forall s, In s names -> In s all) \/ exists s, In s names /\ ~ In s all.
Proof.
  induction names as [|s names IH]; [left; easy|].
  destruct (has_name s all) eqn:H.
  - apply has_name_In in H. destruct IH as [IH|(x & A & B)].
    + left. intros x [ <- |X]; auto.
    + right. exists x. split; [now right|exact B].
  - apply has_name_false in H. right. exists s. split; [now left|exact H].
Qed.

Lemma good_start_loading (w0 w : world) t c tk g names deps p ms i :
  inv w -> running (w_threads w t) = Some (c, tk) -> managers (w_threads w t) = ms ->
  w_log w = w_log w0 -> w_files w = w_files w0 ->
  nth_error ms i = Some g -> loading_call c i names deps p ->
  good_start w0 (start_loading pick process_of w t g names deps p) t c ms.
Proof.
  intros I R M L F G LC. unfold start_loading.
  destruct (proj1 (i_threads w I t) g) as (l & MB).
  { rewrite M. eapply nth_error_In; eauto. }
  destruct (meta_ok_items _ g l MB) as (E & MO & NM).
  assert (DEC := names_dec names (names_of (g_meta g))).
  destruct DEC as [K|(s & S1 & S2)].
  2:{ rewrite (dependency_closure_unknown pick (g_meta g) names deps s S1 S2).
      eapply good_refused; eauto.
      assert (X : exists l s, bags_of w0 g = Some l /\ In s names /\ ~ In s (map a_name l)).
      { exists l, s. rewrite <- NM. unfold bags_of. rewrite <- F. split; [apply MB|auto]. }
      destruct p; cbn in LC; subst c; cbn; rewrite G; auto. }
  destruct (dependency_closure_ok pick (g_meta g) names deps MO K) as (cl & -> & N & H).
  destruct (from_cache_ok w (process_of t) g l I MB cl) as (found & todo & -> & P & LO).
  { intros s S. apply H in S. rewrite <- NM. eapply needed_is_name; eauto. }
  assert (LD : loading_ok (w_files w) c ms g todo found p).
  { exists i, names, deps, l. split; [exact LC|]. split; [exact G|]. split; [exact MB|].
    split; [now rewrite <- NM|]. split; [eapply Permutation_NoDup; [symmetry; exact P|exact N]|].
    split; [|exact LO]. intros x. rewrite <- H. split; apply Permutation_in; [exact P|now symmetry]. }
  destruct todo as [|s todo].
  - apply good_is_start. eapply good_all_loaded; eauto.
  - split.
    + eapply inv_goto; [exact I|exact R|rewrite M; exact LD|left; reflexivity].
    + left. exists (Loading g (s :: todo) found p). unfold goto. rewrite R, set_thread_same.
      cbn. auto.
Qed.

Lemma nth_manager (w : world) t i g : inv w ->
  nth_error (managers (w_threads w t)) i = Some g ->
  exists l, manager_bags (w_files w) g l.
Proof. intros I G. apply (i_threads w I t). eapply nth_error_In; eauto. Qed.

Lemma begin_ok (w : world) t c : inv w -> running (w_threads w t) = None ->
  good_start w (begin_ pick process_of w t c) t c (managers (w_threads w t)).
Proof.
  intros I R0. unfold begin_. set (th := w_threads w t).
  set (w1 := set_thread w t (Thread (managers th) (Some (c, Begun)) Nothing)).
  assert (I1 : inv w1).
  { apply inv_set_thread; [exact I| |].
    - split; [apply (i_threads w I t)|exact Logic.I].
    - cbn. intros c' tk' u [= <- <-]. discriminate. }
  assert (RW : running (w_threads w1 t) = Some (c, Begun)).
  { subst w1. rewrite set_thread_same. reflexivity. }
  assert (MW : managers (w_threads w1 t) = managers th).
  { subst w1. rewrite set_thread_same. reflexivity. }
  assert (GO : forall tk, task_ok (w_files w) c (managers th) tk -> owned tk = None ->
    good_start w (goto w1 t tk) t c (managers th)).
  { intros tk OK O. split.
    - eapply inv_goto; [exact I1|exact RW|rewrite MW; exact OK|auto].
    - left. exists tk. unfold goto. rewrite RW, set_thread_same. cbn. auto. }
  assert (RA : forall e, start_cause w c (managers th) e ->
    good_start w (raise_ w1 t e) t c (managers th)).
  { intros e C. eapply good_refused; eauto. }
  assert (LOAD : forall i names deps p, loading_call c i names deps p ->
    good_start w
      match nth_error (managers th) i with
      | None => raise_ w1 t KeyError
      | Some g => start_loading pick process_of w1 t g names deps p
      end t c (managers th)).
  { intros i names deps p LC. destruct (nth_error (managers th) i) as [g|] eqn:G.
    - eapply good_start_loading; eauto.
    - apply RA. destruct p; cbn in LC; subst c; cbn; now rewrite G. }
  destruct c as [d|d|i bags|i names deps|i names deps|i names deps d|i names deps d].
  - now apply GO.
  - now apply GO.
  - destruct (nth_error (managers th) i) as [g|] eqn:G.
    2:{ apply RA. cbn. now rewrite G. }
    destruct (nth_manager w t i g I G) as (l & MB).
    destruct (meta_ok_items _ g l MB) as (E & MO & NM).
    destruct (validate (names_of (g_meta g)) bags) as [e|] eqn:V.
    + apply RA. cbn. rewrite G. exists l. split; [apply MB|]. intros OK.
      rewrite (validate_complete bags l) in V; [discriminate|exact OK|]. now rewrite NM.
    + apply GO; [|reflexivity]. split; [auto|]. exists l. split; [exact MB|].
      eapply validate_sound; [apply MB| |exact V]. now rewrite NM.
  - now apply LOAD.
  - now apply LOAD.
  - now apply LOAD.
  - destruct (nth_error (managers th) i) as [g|] eqn:G.
    2:{ apply RA. cbn. now rewrite G. }
    destruct (nth_manager w t i g I G) as (l & MB).
    destruct (meta_ok_items _ g l MB) as (E & MO & NM).
    assert (DEC := names_dec names (names_of (g_meta g))).
    destruct DEC as [K|(s & S1 & S2)].
    2:{ rewrite (dependency_closure_unknown pick (g_meta g) names deps s S1 S2).
        apply RA. cbn. rewrite G. split; [reflexivity|]. exists l, s.
        rewrite <- NM. split; [apply MB|auto]. }
    destruct (dependency_closure_ok pick (g_meta g) names deps MO K) as (cl & -> & N & H).
    apply GO; [|reflexivity]. cbn.
    exists i, names, deps, g, l, (filter (fun x => has_name (a_name x) cl) l).
    split; [reflexivity|]. split; [exact G|]. split; [exact MB|]. split.
    { split; [now rewrite <- NM|]. eapply selection_of_names; eauto. }
    split; [reflexivity|]. unfold stored. cbn. apply stored_branch. apply MB.
Qed.

End Steps.
