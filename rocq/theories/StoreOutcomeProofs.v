(** The outcomes of the calls of bag managers *)
From Coq Require Import String.
From Coq Require Import NArith List Bool PeanoNat Lia ZifyN Relations Permutation.
From Verif Require Import StoreModel StoreSpec StoreNameProofs StoreClosureProofs
  StoreFileProofs StoreInvProofs StoreStepProofs StoreRunProofs StoreHistoryProofs
  StoreCallProofs.
Import ListNotations.
Local Open Scope nat_scope.

Section Outcomes.
Context {Bag Custom : Type}.
Notation files := (@files Bag Custom).
Notation to_add := (@to_add Bag Custom).
Notation meta := (@meta Custom).
Notation manager := (@manager Custom).
Notation world := (@world Bag Custom).
Notation call := (@call Bag Custom).
Notation task := (@task Bag Custom).
Notation after := (@after Bag Custom).
Notation result := (@result Bag).
Notation commit := (@commit Bag Custom).
Notation event := (@event Bag Custom).
Variable pick : list string -> nat.
Variable process_of : nat -> nat.
Notation step := (step pick process_of true).
Notation run := (run pick process_of true).

Lemma bags_keeps (w w' : world) g l : keeps (w_files w) (w_files w') ->
  bags_of w g = Some l -> bags_of w' g = Some l.
Proof. intros K. unfold bags_of. now apply stored_keeps. Qed.

Lemma manager_has_bags (w : world) t g : inv w -> In g (managers (w_threads w t)) ->
  exists l, bags_of w g = Some l /\ unique_names l /\ dependencies_first l.
Proof.
  intros I G. destruct (proj1 (i_threads w I t) g G) as (l & _ & A & B). exists l. auto.
Qed.

Lemma request_here (w0 wa : world) ms i names deps sel g all :
  keeps (w_files w0) (w_files wa) ->
  nth_error ms i = Some g -> bags_of w0 g = Some all ->
  request wa ms i names deps sel ->
  (forall s, In s names -> In s (map a_name all)) /\ selection all names deps sel.
Proof.
  intros K G B (g' & l & A1 & A2 & A3 & A4).
  assert (g' = g) as -> by congruence.
  apply (bags_keeps _ _ _ _ K) in B. assert (l = all) as -> by congruence. auto.
Qed.

(** *** load_bags *)
Theorem load_outcome (w : world) t i names deps es g all :
  inv w -> running (w_threads w t) = None ->
  nth_error (managers (w_threads w t)) i = Some g -> bags_of w g = Some all ->
  during t es ->
  let w' := run w (Start t (LoadBags i names deps) :: es) in
  managers (w_threads w' t) = managers (w_threads w t)
  /\ (exists ext, w_log w' = w_log w ++ ext /\ own t ext = [])
  /\ (running (w_threads w' t) = None ->
      match outcome (w_threads w' t) with
      | Loaded l =>
          (forall s, In s names -> In s (map a_name all))
          /\ exists sel, selection all names deps sel
               /\ Permutation l (map (fun x => (a_name x, a_bag x)) sel)
      | Failed UnknownBags => exists s, In s names /\ ~ In s (map a_name all)
      | Failed IoError => io_error t es
      | _ => False
      end).
Proof.
  intros I R G B D w'.
  pose proof (call_status pick process_of w t (LoadBags i names deps) es I R D) as ST.
  change (run (step w (Start t (LoadBags i names deps))) es) with w' in ST. clearbody w'.
  destruct ST as (ext & L & [(tk & A1 & A2 & A3 & A4)|(R' & [(e & A1 & A2 & A3 & A4)|
        (wa & wb & x1 & x2 & A1 & A2 & A3 & A4 & A5 & A6 & A7 & A8 & A9 & A10 & A11)])]).
  - split; [exact A2|]. split; [|congruence]. exists ext. split; [exact L|].
    destruct A3 as [A3|(? & ? & ? & ? & ? & _)]; [exact A3|discriminate].
  - split; [exact A2|]. split.
    + exists ext. split; [exact L|].
      destruct A3 as [A3|(? & ? & ? & ? & ? & _)]; [exact A3|discriminate].
    + intros _. rewrite A1. destruct A4 as [A4|[[-> A4]|(A4 & w1 & x1 & x2 & _ & _ & _ & [])]].
      * cbn in A4. rewrite G in A4. destruct A4 as (-> & l & s & X1 & X2 & X3).
        exists s. split; [exact X2|]. congruence.
      * exact A4.
  - cbn [succeeded] in A1. destruct A1 as ([U1 U2] & sel & l & RQ & O & P).
    rewrite O. split; [congruence|]. split.
    + exists (x1 ++ x2). split; [rewrite A9, U2, A8; now rewrite app_assoc|].
      destruct A10 as [A10|(? & ? & ? & ? & ? & _)]; [|discriminate].
      now rewrite own_app, A10, A11.
    + intros _. destruct (request_here _ _ _ _ _ _ _ _ _ A5 G B RQ) as [K S].
      split; [exact K|]. exists sel. auto.
Qed.

(** *** get_minimal_bag *)
Theorem minimal_outcome (w : world) t i names deps es g all :
  inv w -> running (w_threads w t) = None ->
  nth_error (managers (w_threads w t)) i = Some g -> bags_of w g = Some all ->
  during t es ->
  let w' := run w (Start t (GetMinimalBag i names deps) :: es) in
  managers (w_threads w' t) = managers (w_threads w t)
  /\ (exists ext, w_log w' = w_log w ++ ext /\ own t ext = [])
  /\ (running (w_threads w' t) = None ->
      match outcome (w_threads w' t) with
      | Updated l =>
          (forall s, In s names -> In s (map a_name all))
          /\ exists sel, selection all names deps sel /\ l = map a_bag sel
      | Failed UnknownBags => exists s, In s names /\ ~ In s (map a_name all)
      | Failed IoError => io_error t es
      | _ => False
      end).
Proof.
  intros I R G B D w'.
  pose proof (call_status pick process_of w t (GetMinimalBag i names deps) es I R D) as ST.
  change (run (step w (Start t (GetMinimalBag i names deps))) es) with w' in ST. clearbody w'.
  destruct ST as (ext & L & [(tk & A1 & A2 & A3 & A4)|(R' & [(e & A1 & A2 & A3 & A4)|
        (wa & wb & x1 & x2 & A1 & A2 & A3 & A4 & A5 & A6 & A7 & A8 & A9 & A10 & A11)])]).
  - split; [exact A2|]. split; [|congruence]. exists ext. split; [exact L|].
    destruct A3 as [A3|(? & ? & ? & ? & ? & _)]; [exact A3|discriminate].
  - split; [exact A2|]. split.
    + exists ext. split; [exact L|].
      destruct A3 as [A3|(? & ? & ? & ? & ? & _)]; [exact A3|discriminate].
    + intros _. rewrite A1. destruct A4 as [A4|[[-> A4]|(A4 & w1 & x1 & x2 & _ & _ & _ & [])]].
      * cbn in A4. rewrite G in A4. destruct A4 as (-> & l & s & X1 & X2 & X3).
        exists s. split; [exact X2|]. congruence.
      * exact A4.
  - cbn [succeeded] in A1. destruct A1 as ([U1 U2] & sel & RQ & O).
    rewrite O. split; [congruence|]. split.
    + exists (x1 ++ x2). split; [rewrite A9, U2, A8; now rewrite app_assoc|].
      destruct A10 as [A10|(? & ? & ? & ? & ? & _)]; [|discriminate].
      now rewrite own_app, A10, A11.
    + intros _. destruct (request_here _ _ _ _ _ _ _ _ _ A5 G B RQ) as [K S].
      split; [exact K|]. exists sel. auto.
Qed.

(** *** extract_bags *)
Theorem extract_outcome (w : world) t i names deps d es g all :
  inv w -> running (w_threads w t) = None ->
  nth_error (managers (w_threads w t)) i = Some g -> bags_of w g = Some all ->
  during t es ->
  let w' := run w (Start t (ExtractBags i names deps d) :: es) in
  managers (w_threads w' t) = managers (w_threads w t)
  /\ exists ext, w_log w' = w_log w ++ ext
     /\ match running (w_threads w' t), outcome (w_threads w' t) with
        | None, Extracted =>
            (forall s, In s names -> In s (map a_name all))
            /\ exists sel before after,
                 selection all names deps sel
                 /\ ext = before ++ Commit t d 1 (BagsAdded (map without_custom sel)) :: after
                 /\ replay (w_log w ++ before) d = Some []
                 /\ (own t before = [] \/ own t before = [Commit t d 0 Created])
                 /\ own t after = []
        | None, Failed e =>
            (own t ext = [] \/ own t ext = [Commit t d 0 Created])
            /\ match e with
               | UnknownBags => exists s, In s names /\ ~ In s (map a_name all)
               | IoError => io_error t es
               | KeyError | UnknownDependency | NameAlreadyAdded | ReadError => False
               | _ => True
               end
        | None, _ => False
        | Some _, _ => own t ext = [] \/ own t ext = [Commit t d 0 Created]
        end.
Proof.
  intros I R G B D w'.
  pose proof (call_status pick process_of w t (ExtractBags i names deps d) es I R D) as ST.
  change (run (step w (Start t (ExtractBags i names deps d))) es) with w' in ST. clearbody w'.
  assert (SF : forall x : list commit, so_far t (ExtractBags i names deps d) x ->
    own t x = [] \/ own t x = [Commit t d 0 Created]).
  { intros x [X|(i' & n' & d' & o' & E & X)]; [auto|]. injection E as <- <- <- <-. auto. }
  destruct ST as (ext & L & [(tk & A1 & A2 & A3 & A4)|(R' & [(e & A1 & A2 & A3 & A4)|
        (wa & wb & x1 & x2 & A1 & A2 & A3 & A4 & A5 & A6 & A7 & A8 & A9 & A10 & A11)])]).
  - split; [exact A2|]. exists ext. split; [exact L|]. rewrite A1. auto.
  - split; [exact A2|]. exists ext. split; [exact L|]. rewrite R', A1. split; [auto|].
    destruct A4 as [A4|[[-> A4]|(A4 & w1 & x1 & x2 & _ & _ & _ & A5)]].
    + cbn in A4. rewrite G in A4. destruct A4 as (-> & l & s & X1 & X2 & X3).
      exists s. split; [exact X2|]. congruence.
    + exact A4.
    + cbn in A5. destruct A5 as (B1 & B2 & B3 & B4 & B5). destruct e; congruence || auto.
  - cbn [succeeded] in A1. destruct A1 as (O & U1 & sel & RQ & RP & U2).
    split; [congruence|]. exists (x1 ++ Commit t d 1 (BagsAdded (map without_custom sel)) :: x2).
    split; [rewrite A9, U2, A8; now rewrite <- !app_assoc|]. rewrite R', O.
    destruct (request_here _ _ _ _ _ _ _ _ _ A5 G B RQ) as [K S]. split; [exact K|].
    exists sel, x1, x2. split; [exact S|]. split; [reflexivity|].
    split; [rewrite <- A8; exact RP|]. auto.
Qed.

(** *** create_branch *)
Lemma first_commit (log : list commit) d c : numbers_inv (log ++ [c]) ->
  c_dir c = d -> c_number c = 0%N -> changes_of d log = [].
Proof.
  intros NI D Z. specialize (NI d). rewrite filter_app, map_app in NI. cbn in NI.
  rewrite D, String.eqb_refl in NI. cbn in NI. rewrite Z in NI.
  unfold count in NI. rewrite changes_of_snoc, D, String.eqb_refl in NI.
  rewrite app_length in NI. cbn [length] in NI. rewrite Nat.add_1_r, seq_S in NI.
  rewrite map_app in NI. apply app_inj_tail in NI as [_ NI].
  destruct (changes_of d log); [reflexivity|]. cbn in NI. discriminate.
Qed.

Theorem branch_outcome (w : world) t i names deps d es g all :
  inv w -> running (w_threads w t) = None ->
  nth_error (managers (w_threads w t)) i = Some g -> bags_of w g = Some all ->
  during t es ->
  let w' := run w (Start t (CreateBranch i names deps d) :: es) in
  managers (w_threads w' t) = managers (w_threads w t)
  /\ exists ext, w_log w' = w_log w ++ ext
     /\ match running (w_threads w' t), outcome (w_threads w' t) with
        | None, Branched =>
            (forall s, In s names -> In s (map a_name all))
            /\ exists sel before after,
                 selection all names deps sel
                 /\ ext = before ++ Commit t d 0 (BranchOf sel) :: after
                 /\ changes_of d (w_log w ++ before) = []
                 /\ own t before = [] /\ own t after = []
        | None, Failed e =>
            own t ext = []
            /\ match e with
               | UnknownBags => exists s, In s names /\ ~ In s (map a_name all)
               | IoError => io_error t es
               | KeyError | UnknownDependency | NameAlreadyAdded | ReadError => False
               | _ => True
               end
        | None, _ => False
        | Some _, _ => own t ext = []
        end.
Proof.
  intros I R G B D w'.
  pose proof (call_status pick process_of w t (CreateBranch i names deps d) es I R D) as ST.
  change (run (step w (Start t (CreateBranch i names deps d))) es) with w' in ST. clearbody w'.
  assert (SF : forall x : list commit, so_far t (CreateBranch i names deps d) x -> own t x = []).
  { intros x [X|(i' & n' & d' & o' & E & X)]; [exact X|discriminate]. }
  destruct ST as (ext & L & [(tk & A1 & A2 & A3 & A4)|(R' & [(e & A1 & A2 & A3 & A4)|
        (wa & wb & x1 & x2 & A1 & A2 & A3 & A4 & A5 & A6 & A7 & A8 & A9 & A10 & A11)])]).
  - split; [exact A2|]. exists ext. split; [exact L|]. rewrite A1. auto.
  - split; [exact A2|]. exists ext. split; [exact L|]. rewrite R', A1. split; [auto|].
    destruct A4 as [A4|[[-> A4]|(A4 & w1 & x1 & x2 & _ & _ & _ & A5)]].
    + cbn in A4. rewrite G in A4. destruct A4 as (-> & l & s & X1 & X2 & X3).
      exists s. split; [exact X2|]. congruence.
    + exact A4.
    + cbn in A5. destruct A5 as (B1 & B2 & B3 & B4 & B5). destruct e; congruence || auto.
  - cbn [succeeded] in A1. destruct A1 as (O & U1 & sel & RQ & U2).
    split; [congruence|]. exists (x1 ++ Commit t d 0 (BranchOf sel) :: x2).
    split; [rewrite A9, U2, A8; now rewrite <- !app_assoc|]. rewrite R', O.
    destruct (request_here _ _ _ _ _ _ _ _ _ A5 G B RQ) as [K S]. split; [exact K|].
    exists sel, x1, x2. split; [exact S|]. split; [reflexivity|].
    split; [|auto]. rewrite <- A8.
    eapply first_commit; [rewrite <- U2; apply (i_numbers wb A4)|reflexivity|reflexivity].
Qed.

(** *** create_new *)
Theorem create_outcome (w : world) t d es :
  inv w -> running (w_threads w t) = None -> during t es ->
  let w' := run w (Start t (CreateNew d) :: es) in
  exists ext, w_log w' = w_log w ++ ext
     /\ match running (w_threads w' t), outcome (w_threads w' t) with
        | None, NewManager =>
            exists g before after,
              managers (w_threads w' t) = managers (w_threads w t) ++ [g]
              /\ g_dir g = d /\ bags_of w' g = Some []
              /\ ext = before ++ Commit t d 0 Created :: after
              /\ changes_of d (w_log w ++ before) = []
              /\ own t before = [] /\ own t after = []
        | None, Failed e =>
            own t ext = [] /\ managers (w_threads w' t) = managers (w_threads w t)
            /\ match e with
               | UnknownBags | KeyError | UnknownDependency | NameAlreadyAdded | ReadError => False
               | IoError => io_error t es
               | _ => True
               end
        | None, _ => False
        | Some _, _ => own t ext = [] /\ managers (w_threads w' t) = managers (w_threads w t)
        end.
Proof.
  intros I R D w'.
  pose proof (call_status pick process_of w t (CreateNew d) es I R D) as ST.
  change (run (step w (Start t (CreateNew d))) es) with w' in ST. clearbody w'.
  assert (SF : forall x : list commit, so_far t (CreateNew d) x -> own t x = []).
  { intros x [X|(i' & n' & d' & o' & E & X)]; [exact X|discriminate]. }
  destruct ST as (ext & L & [(tk & A1 & A2 & A3 & A4)|(R' & [(e & A1 & A2 & A3 & A4)|
        (wa & wb & x1 & x2 & A1 & A2 & A3 & A4 & A5 & A6 & A7 & A8 & A9 & A10 & A11)])]).
  - exists ext. split; [exact L|]. rewrite A1. auto.
  - exists ext. split; [exact L|]. rewrite R', A1. split; [auto|]. split; [auto|].
    destruct A4 as [A4|[[-> A4]|(A4 & w1 & x1 & x2 & _ & _ & _ & A5)]]; [destruct A4|exact A4|].
    cbn in A5. destruct A5 as (B1 & B2 & B3 & B4 & B5). destruct e; congruence || auto.
  - cbn [succeeded] in A1. destruct A1 as (O & U1 & U2).
    exists (x1 ++ Commit t d 0 Created :: x2).
    split; [rewrite A9, U2, A8; now rewrite <- !app_assoc|]. rewrite R', O.
    exists (Manager d initial_meta), x1, x2. split; [congruence|]. split; [reflexivity|].
    split; [reflexivity|]. split; [reflexivity|].
    split; [|auto]. rewrite <- A8.
    eapply first_commit; [rewrite <- U2; apply (i_numbers wb A4)|reflexivity|reflexivity].
Qed.

Lemma replace_nth_has {A} (l : list A) : forall n x, n < length l -> In x (replace_nth n x l).
Proof.
  induction l as [|y l IH]; intros [|n] x L; cbn in *; try lia; [now left|].
  right. apply IH. lia.
Qed.

(** *** add_bags *)
Theorem add_outcome (w : world) t i bags es g all :
  inv w -> running (w_threads w t) = None ->
  nth_error (managers (w_threads w t)) i = Some g -> bags_of w g = Some all ->
  during t es ->
  let w' := run w (Start t (AddBags i bags) :: es) in
  exists ext, w_log w' = w_log w ++ ext
     /\ match running (w_threads w' t), outcome (w_threads w' t) with
        | None, Added =>
            unique_names (all ++ bags) /\ dependencies_first (all ++ bags)
            /\ exists g' before after,
                 managers (w_threads w' t) = replace_nth i g' (managers (w_threads w t))
                 /\ g_dir g' = g_dir g
                 /\ bags_of w' g' = Some (all ++ bags)
                 /\ ext = before
                      ++ Commit t (g_dir g) (m_number (g_meta g) + 1) (BagsAdded bags) :: after
                 /\ replay (w_log w ++ before) (g_dir g) = Some all
                 /\ own t before = [] /\ own t after = []
        | None, Failed e =>
            own t ext = [] /\ managers (w_threads w' t) = managers (w_threads w t)
            /\ (~ (unique_names (all ++ bags) /\ dependencies_first (all ++ bags))
                \/ e = IoError /\ io_error t es
                \/ (e = AlreadyCommitted \/ e = FileExists) /\ outdated w' g)
        | None, _ => False
        | Some _, _ =>
            own t ext = [] /\ managers (w_threads w' t) = managers (w_threads w t)
        end.
Proof.
  intros I R G B D w'.
  pose proof (call_status pick process_of w t (AddBags i bags) es I R D) as ST.
  change (run (step w (Start t (AddBags i bags))) es) with w' in ST. clearbody w'.
  assert (SF : forall x : list commit, so_far t (AddBags i bags) x -> own t x = []).
  { intros x [X|(i' & n' & d' & o' & E & X)]; [exact X|discriminate]. }
  destruct ST as (ext & L & [(tk & A1 & A2 & A3 & A4)|(R' & [(e & A1 & A2 & A3 & A4)|
        (wa & wb & x1 & x2 & A1 & A2 & A3 & A4 & A5 & A6 & A7 & A8 & A9 & A10 & A11)])]).
  - exists ext. split; [exact L|]. rewrite A1. auto.
  - exists ext. split; [exact L|]. rewrite R', A1. split; [auto|]. split; [auto|].
    destruct A4 as [A4|[[-> A4]|(A4 & w1 & x1 & x2 & E1 & E2 & E3 & A5)]].
    + left. cbn in A4. rewrite G in A4. destruct A4 as (l & X1 & X2).
      assert (l = all) as -> by congruence. exact X2.
    + right. left. auto.
    + right. right. cbn in A5. destruct A5 as [(A5 & g' & X1 & X2)|A5]; [|congruence].
      assert (g' = g) as -> by congruence. split; [exact A5|].
      destruct X2 as (c & X2 & X3 & X4). exists c. split; [|auto].
      rewrite L, E1, app_assoc, <- E2. apply in_app_iff. auto.
  - cbn [succeeded] in A1. destruct A1 as (O & g' & l & m & X1 & X2 & X3 & X4 & X5 & X6 & X7).
    assert (g' = g) as -> by congruence.
    apply (bags_keeps _ _ _ _ A5) in B. assert (l = all) as -> by congruence.
    exists (x1 ++ Commit t (g_dir g) (m_number (g_meta g) + 1) (BagsAdded bags) :: x2).
    split; [rewrite A9, X7, A8, X5; now rewrite <- !app_assoc|]. rewrite R', O.
    assert (OK : items_ok (all ++ bags)).
    { destruct (manager_has_bags wb t (Manager (g_dir g) m) A4) as (l' & Y1 & Y2).
      - rewrite X3. apply replace_nth_has. apply nth_error_Some. congruence.
      - assert (l' = all ++ bags) as -> by congruence. exact Y2. }
    split; [apply OK|]. split; [apply OK|].
    exists (Manager (g_dir g) m), x1, x2. split; [congruence|]. split; [reflexivity|].
    split; [eapply bags_keeps; eauto|]. split; [reflexivity|].
    split; [rewrite <- A8; exact X6|]. auto.
Qed.

End Outcomes.
