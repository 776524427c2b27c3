(** The properties of data slice managers (C29, C30). *)
From Coq Require Import String.
From Coq Require Import NArith ZArith List Bool PeanoNat Lia.
From Verif Require Import PathModel PathCodecModel PathSpec PathProofs PathGenProofs
  PathCodecProofs GraphModel GraphSpec GraphProps SliceManagerModel SliceManagerSpec
  SliceManagerLoadProofs SliceManagerCombineProofs SliceManagerProofs SliceManagerEffectProofs
  SliceManagerExampleProofs.
Import ListNotations.
Local Open Scope string_scope.
Local Open Scope list_scope.
Local Open Scope nat_scope.

Section Properties.
  Variable lx : lexicon.
  Variable pop : list text -> option (text * list text).
  Variable ty : N -> text.
  Variable struct : text -> option node.
  Variable root : N.
  Variable root_schema : text.
  Hypothesis ST : setting lx pop ty struct root root_schema.

  (** Every history in which the updates replace what they give a new schema. *)
  Notation replacing_history :=
    (history ty struct root root_schema (replacing ty root root_schema) lx pop).
  (** Every history in which no attribute gets a new schema. *)
  Notation keeping_history :=
    (history ty struct root root_schema (keeping root_schema) lx pop).
  Notation load := (get_data_slice lx pop root_schema).
  Notation at_slice := (evaluate_slice root root_schema).
  Notation written_at := (at_path root).

  (** * Loading *)

  (** For every manager in every history: if some paths of its revision are loaded,
      then everything that was asked for is there, and whatever can be seen in the
      loaded slice is what the revision has there. *)
  Theorem C29_loads_what_was_asked_for : forall d ms ks sts m st ps ds,
    replacing_history d ms ks sts -> In m ms -> nth_error sts (m_number m) = Some st ->
    Forall (has_path root_schema st) (ps ++ ds) ->
    exists s, load d m ps ds = Done s
      /\ (forall p, asked ps ds p -> has_path root_schema st p ->
            at_slice s p = Done (written_at st p))
      /\ (forall p t, at_slice s p = Done t ->
            has_path root_schema st p /\ t = written_at st p).
  Proof.
    intros d ms ks sts m st ps ds H I E F.
    exact (loading _ _ _ _ _ _ ST d m st (view_loads _ _ _ _ _ _ ST d ms ks sts H m st I E) ps ds F).
  Qed.

  (** It is refused to load something that has a path that is not there. *)
  Theorem C29_refuses_invalid_paths : forall d ms ks sts m st ps ds,
    replacing_history d ms ks sts -> In m ms -> nth_error sts (m_number m) = Some st ->
    ~ Forall (has_path root_schema st) (ps ++ ds) ->
    exists p, In p (ps ++ ds) /\ ~ has_path root_schema st p
      /\ load d m ps ds = Raised (SchemaError (InvalidArgument p)).
  Proof.
    intros d ms ks sts m st ps ds H I E F.
    exact (refuses _ _ _ _ _ _ ST d m st (view_loads _ _ _ _ _ _ ST d ms ks sts H m st I E) ps ds F).
  Qed.

  (** Nothing else is refused. *)
  Theorem C29_loads_exactly_valid_paths : forall d ms ks sts m st ps ds,
    replacing_history d ms ks sts -> In m ms -> nth_error sts (m_number m) = Some st ->
    ((exists s, load d m ps ds = Done s) <-> Forall (has_path root_schema st) (ps ++ ds)).
  Proof.
    intros d ms ks sts m st ps ds H I E.
    exact (loads_iff _ _ _ _ _ _ ST d m st (view_loads _ _ _ _ _ _ ST d ms ks sts H m st I E) ps ds).
  Qed.

  (** Loading everything shows all of the revision and nothing else, and agrees with
      all that is seen by loading less. *)
  Theorem C29_partial_loads_agree_with_a_full_load : forall d ms ks sts m st,
    replacing_history d ms ks sts -> In m ms -> nth_error sts (m_number m) = Some st ->
    exists full, load d m [] [[]] = Done full
      /\ (forall p, has_path root_schema st p -> at_slice full p = Done (written_at st p))
      /\ (forall p, ~ has_path root_schema st p ->
            at_slice full p = Raised (SchemaError InvalidPath))
      /\ (forall ps ds s p t, load d m ps ds = Done s -> at_slice s p = Done t ->
            at_slice full p = Done t).
  Proof.
    intros d ms ks sts m st H I E.
    exact (everything _ _ _ _ _ _ ST d m st (view_loads _ _ _ _ _ _ ST d ms ks sts H m st I E)).
  Qed.

  (** Two loaded slices can be put together, as long as no attribute was given a new
      schema. *)
  Theorem C29_loaded_slices_combine : forall d ms ks sts m st ps1 ds1 ps2 ds2,
    keeping_history d ms ks sts -> In m ms -> nth_error sts (m_number m) = Some st ->
    Forall (has_path root_schema st) ((ps1 ++ ds1) ++ ps2 ++ ds2) ->
    exists s1 s2, load d m ps1 ds1 = Done s1 /\ load d m ps2 ds2 = Done s2
      /\ (forall p, asked (ps1 ++ ps2) (ds1 ++ ds2) p -> has_path root_schema st p ->
            at_slice (slice_updated s1 s2) p = Done (written_at st p))
      /\ (forall p t, at_slice (slice_updated s1 s2) p = Done t ->
            has_path root_schema st p /\ t = written_at st p).
  Proof. exact (combining _ _ _ _ _ _ ST). Qed.

  (** * Revisions *)

  (** Every manager shows the state of its revision, and nothing else. *)
  Theorem C30_managers_show_their_revision : forall d ms ks sts m,
    replacing_history d ms ks sts -> In m ms ->
    exists st, nth_error sts (m_number m) = Some st
      /\ shows lx pop root root_schema d m st.
  Proof. intros d ms ks sts m H. exact (managers_show _ _ _ _ _ _ ST d ms ks sts H m). Qed.

  (** The revision history of a manager is that of the directory up to its revision. *)
  Theorem C30_revision_histories : forall d ms ks sts m,
    replacing_history d ms ks sts -> In m ms ->
    length ks = length sts /\ m_number m < length sts
    /\ revision_history m = firstn (S (m_number m)) ks.
  Proof. intros d ms ks sts m H. exact (revisions _ _ _ _ _ _ ST d ms ks sts H m). Qed.

  (** Each revision is the result of the update that its entry names, for the
      revision before it. *)
  Theorem C30_revisions_replay_the_updates : forall d ms ks sts k st st',
    replacing_history d ms ks sts ->
    nth_error sts k = Some st -> nth_error sts (S k) = Some st' ->
    exists u, nth_error ks (S k) = Some (AttributeUpdate (u_path u) (u_attr u))
      /\ valid_change ty struct root root_schema lx st u
      /\ replacing ty root root_schema st u
      /\ after ty root root_schema st u st'.
  Proof. intros d ms ks sts k st st' H. exact (replay _ _ _ _ _ _ ST d ms ks sts H k st st'). Qed.

  (** The first revision is an entity without attributes, or that of a branch. *)
  Theorem C30_first_revision : forall d ms ks sts,
    replacing_history d ms ks sts ->
    (hd_error ks = Some Creation /\ hd_error sts = Some initial_state)
    \/ exists i, hd_error ks = Some (BranchOf i).
  Proof. intros d ms ks sts H. exact (first_revision _ _ _ _ _ _ _ d ms ks sts H). Qed.

  (** Every revision can be opened at any time, others cannot. What an opened manager
      shows is said by the theorems above, as opening is part of the histories. *)
  Theorem C30_every_revision_can_be_opened : forall d ms ks sts i ro,
    replacing_history d ms ks sts ->
    match i with
    | Some k =>
        if Nat.ltb k (length sts)
        then exists m, create_from_dir d i ro = Done m /\ m_number m = k /\ m_read_only m = ro
        else create_from_dir d i ro = Raised IndexOutOfBounds
    | None =>
        exists m, create_from_dir d i ro = Done m /\ S (m_number m) = length sts
          /\ m_read_only m = ro
    end.
  Proof. intros d ms ks sts i ro H. exact (opening _ _ _ _ _ _ ST d ms ks sts H i ro). Qed.

  (** A successful update makes one new revision, from the latest one, and shows what
      the update says. *)
  Theorem C30_update_effect : forall d ms ks sts m u c d' m' st,
    replacing_history d ms ks sts -> In m ms -> nth_error sts (m_number m) = Some st ->
    valid_change ty struct root root_schema lx st u -> replacing ty root root_schema st u ->
    update lx pop root root_schema d m u c = (d', m', Some (Done tt)) ->
    m_read_only m = false /\ S (m_number m) = length sts /\ m_number m' = length sts
    /\ m_read_only m' = false
    /\ (exists st', after ty root root_schema st u st')
    /\ (forall st', after ty root root_schema st u st' ->
          shows lx pop root root_schema d' m' st').
  Proof.
    intros d ms ks sts m u c d' m' st H. exact (update_effect _ _ _ _ _ _ ST d ms ks sts H m u c d' m' st).
  Qed.

  (** What [after] means. The targets of an update get the values at their positions;
      if a target occurs several times, the last value counts. *)
  Theorem C30_new_values : forall d ms ks sts m st u st' i o v,
    replacing_history d ms ks sts -> In m ms -> nth_error sts (m_number m) = Some st ->
    after ty root root_schema st u st' ->
    nth_error (targets_of root st (u_path u)) i = Some (Some (Obj o)) ->
    nth_error (u_values u) i = Some v ->
    (forall j, i < j -> nth_error (targets_of root st (u_path u)) j <> Some (Some (Obj o))) ->
    st_data st' (o, FAttr (u_attr u)) = Some (CValue v).
  Proof.
    intros d ms ks sts m st u st' i o v H I E (at_id & AT & _ & A1 & _).
    destruct ST as (_ & _ & _ & RT & _).
    exact (new_value ty struct root root_schema lx RT d _ _ st
             (view_loads _ _ _ _ _ _ ST d ms ks sts H m st I E) u at_id AT st' A1 i o v).
  Qed.

  (** Reading the updated attribute gives back the values, with missing items where
      there was no target, as long as the targets are different and the update does not
      change what is at their path. *)
  Theorem C30_read_back : forall d ms ks sts m st u st',
    replacing_history d ms ks sts -> In m ms -> nth_error sts (m_number m) = Some st ->
    after ty root root_schema st u st' ->
    targets_of root st' (u_path u) = targets_of root st (u_path u) ->
    length (targets_of root st (u_path u)) = length (u_values u) ->
    NoDup (objects (targets_of root st (u_path u))) ->
    targets_of root st' (u_path u ++ [GetAttr (u_attr u)])
    = map (fun tv => match fst tv with Some (Obj _) => snd tv | _ => None end)
        (combine (targets_of root st (u_path u)) (u_values u)).
  Proof.
    intros d ms ks sts m st u st' H I E A EQ L N. unfold targets_of at 1.
    rewrite flattened_attr. fold (targets_of root st' (u_path u)). rewrite EQ.
    apply map_combine_attr; [exact L|]. intros i t v F G. destruct t as [[o|w]|]; try reflexivity.
    unfold attr_of. rewrite (C30_new_values d ms ks sts m st u st' i o v H I E A F G); [reflexivity|].
    intros j J K. pose proof (distinct_targets _ N i j o F K). lia.
  Qed.

  (** The data that comes with the values is written for all that can be reached from
      them: attributes and lists are replaced, the entries of a dict are added to those
      that it has, replacing the values of keys that it has already. *)
  Theorem C30_new_data : forall d ms ks sts m st u st' at_id o f c,
    replacing_history d ms ks sts -> In m ms -> nth_error sts (m_number m) = Some st ->
    valid_change ty struct root root_schema lx st u ->
    after ty root root_schema st u st' ->
    schema_along (st_child st) (SNode root_schema) (u_path u) = Some (SNode at_id) ->
    reached ty (update_child u at_id) (update_data u (targets_of root st (u_path u)))
      (objects (targets_of root st (u_path u))) o ->
    (exists a x, update_child u at_id (ty o) a = Some x /\ field_of a = f) ->
    (In (Some (Obj o)) (targets_of root st (u_path u)) -> f <> FAttr (u_attr u)) ->
    In ((o, f), c) (u_data u) -> (forall c', In ((o, f), c') (u_data u) -> c' = c) ->
    match c with
    | CEntries e =>
        exists l, st_data st' (o, f) = Some (CEntries l) /\ NoDup (map fst l)
          /\ forall k v, In (k, v) l <->
               In (k, v) e
               \/ ~ In k (map fst e)
                  /\ exists old, st_data st (o, f) = Some (CEntries old) /\ In (k, v) old
    | _ => st_data st' (o, f) = Some c
    end.
  Proof.
    intros d ms ks sts m st u st' at_id o f c H I E (at1 & AT1 & V) (at2 & AT2 & _ & A1 & _) AT R F NT J U.
    assert (at1 = at_id) as -> by congruence. assert (at2 = at_id) as -> by congruence.
    pose proof (view_loads _ _ _ _ _ _ ST d ms ks sts H m st I E) as O.
    destruct ST as (_ & _ & _ & RT & _).
    pose proof (new_data ty root st u at_id st' A1 o f c R F NT J U) as Q.
    destruct V as (_ & _ & _ & _ & _ & V & _). specialize (V _ _ J). cbn [snd] in V.
    destruct c as [v|l|e].
    - rewrite Q. unfold over. now destruct (st_data st (o, f)) as [[| |]|].
    - rewrite Q. unfold over. now destruct (st_data st (o, f)) as [[| |]|].
    - destruct f; try easy.
      destruct (entries_over ty struct root_schema lx d _ _ st O o e V) as (l & L1 & L2 & L3).
      exists l. split; [now rewrite Q, L1|]. now split.
  Qed.

  (** Everything else stays as it was. *)
  Theorem C30_updates_change_nothing_else : forall st u st' s,
    after ty root root_schema st u st' ->
    (forall o, In (Some (Obj o)) (targets_of root st (u_path u)) -> s <> (o, FAttr (u_attr u))) ->
    (forall c, ~ In (s, c) (u_data u)) -> st_data st' s = st_data st s.
  Proof.
    intros st u st' s (at_id & AT & _ & _ & A2).
    exact (nothing_else ty root st u at_id st' A2 s).
  Qed.

  (** No update, successful or not, cut off or not, changes what the other managers
      show. It does not have to be replacing. *)
  Theorem C30_updates_do_not_disturb_other_managers : forall d ms ks sts m u c d' m' r st m2,
    replacing_history d ms ks sts -> In m ms -> nth_error sts (m_number m) = Some st ->
    valid_change ty struct root root_schema lx st u
    \/ (exists e, plan_update lx pop root root_schema d m u = Raised e) ->
    update lx pop root root_schema d m u c = (d', m', r) -> In m2 ms ->
    same_view lx pop root_schema d m2 d' m2.
  Proof.
    intros d ms ks sts m u c d' m' r st m2 H I E V U I2.
    exact (isolation _ _ _ _ _ _ ST d ms ks sts H m u c d' m' r st I E V U m2 I2).
  Qed.

  (** An update that fails or is cut off changes nothing: the manager stays the same
      and every revision is opened as before. *)
  Theorem C30_failed_updates_change_nothing : forall d ms ks sts m u c d' m' r st,
    replacing_history d ms ks sts -> In m ms -> nth_error sts (m_number m) = Some st ->
    valid_change ty struct root root_schema lx st u
    \/ (exists e, plan_update lx pop root root_schema d m u = Raised e) ->
    update lx pop root root_schema d m u c = (d', m', r) -> r <> Some (Done tt) ->
    m' = m /\ (forall i ro, create_from_dir d' i ro = create_from_dir d i ro).
  Proof.
    intros d ms ks sts m u c d' m' r st H. exact (failing _ _ _ _ _ _ ST d ms ks sts H m u c d' m' r st).
  Qed.

  (** Updates of the latest revision succeed, those of an older one are refused, so no
      revision is ever overwritten or left out. *)
  Theorem C30_only_the_latest_revision_can_be_updated : forall d ms ks sts m u at_id st,
    replacing_history d ms ks sts -> In m ms -> nth_error sts (m_number m) = Some st ->
    m_read_only m = false ->
    schema_along (st_child st) (SNode root_schema) (u_path u) = Some (SNode at_id) ->
    change_ok ty struct root lx st u at_id -> struct at_id = None ->
    supported (u_schemas u) (u_schema u) ->
    length (targets_of root st (u_path u)) = length (u_values u) ->
    exists d' m', update lx pop root root_schema d m u NoCut
      = (d', m', Some (if Nat.eqb (S (m_number m)) (length sts) then Done tt
                       else Raised ConcurrentUpdate)).
  Proof.
    intros d ms ks sts m u at_id st H.
    exact (succeeding _ _ _ _ _ _ ST d ms ks sts H m u at_id st).
  Qed.

  (** A branch of a revision shows this revision, has no part of the old history, and
      can be updated by itself. *)
  Theorem C30_branches : forall d ms ks sts m i,
    replacing_history d ms ks sts -> In m ms ->
    if Nat.ltb (m_number m) i then branch d m i = Raised IndexOutOfBounds
    else exists d' m' st, branch d m i = Done (d', m') /\ nth_error sts i = Some st
      /\ replacing_history d' [m'] [BranchOf i] [st]
      /\ shows lx pop root root_schema d' m' st
      /\ m_read_only m' = false /\ revision_history m' = [BranchOf i].
  Proof. intros d ms ks sts m i H. exact (branching _ _ _ _ _ _ ST d ms ks sts H m i). Qed.
End Properties.

(** A read-only manager never changes anything. *)
Theorem C30_read_only_managers : forall lx pop root root_schema d m u c,
  m_read_only m = true ->
  update lx pop root root_schema d m u c = (d, m, Some (Raised ReadOnly)).
Proof. exact read_only_refuses. Qed.

(** And a read-only copy of a manager is one. *)
Theorem C30_read_only_copies : forall lx pop root root_schema d m u c,
  update lx pop root root_schema d (readonly_copy m) u c =
    (d, readonly_copy m, Some (Raised ReadOnly)).
Proof. intros. exact (read_only_refuses lx pop root root_schema d (readonly_copy m) u c eq_refl). Qed.

(** * The hypotheses are met *)

Definition ty1 (o : N) : text :=
  match o with
  | 0%N => str "R"
  | 1%N | 2%N => str "S"
  | 3%N | 4%N | 5%N => str "T"
  | 6%N => str "U"
  | 7%N => str "L"
  | 8%N => str "D"
  | _ => str "Z"
  end.
Definition struct1 (id : text) : option node :=
  if text_eqb id (str "L") then Some (NList (SNode (str "S")))
  else if text_eqb id (str "D") then Some (NDict (SPrimitive (str "STRING")) (SNode (str "T")))
  else None.

Example setting1 : setting lx1 pop_first ty1 struct1 0%N (str "R").
Proof.
  split; [apply koda_codec_ok|]. split; [exact pop_first_ok|]. split.
  { intros id n. unfold struct1. destruct (text_eqb id (str "L")); [intros E; injection E as <-; exact I|].
    destruct (text_eqb id (str "D")); [intros E; injection E as <-; exact I|discriminate]. }
  split; [reflexivity|]. split; [|reflexivity].
  apply plainb_ok. reflexivity.
Qed.

Definition int32 : schema := SPrimitive (str "INT32").
Definition schema_S : text * node := (str "S", NEntity [(str "x", int32)]).
Definition schema_T : text * node := (str "T", NEntity [(str "v", int32)]).
Definition schema_U : text * node := (str "U", NEntity [(str "w", int32)]).

Definition docs : path := [GetAttr (str "docs"); ListExplode].

(** A list of documents, one of them missing. *)
Definition u1 : change :=
  Change [] (str "docs") [Some (Obj 7)]
    [((7%N, FItems), CItems [Some (Obj 1); None; Some (Obj 2)]);
     ((1%N, FAttr (str "x")), CValue (Some (Prim 10)));
     ((2%N, FAttr (str "x")), CValue (Some (Prim 20)))]
    (SNode (str "L"))
    [(str "L", NList (SNode (str "S"))); schema_S].
(** A new attribute of the documents. *)
Definition u2 : change :=
  Change docs (str "t") [Some (Obj 3); None; Some (Obj 4)]
    [((3%N, FAttr (str "v")), CValue (Some (Prim 30)));
     ((4%N, FAttr (str "v")), CValue (Some (Prim 40)))]
    (SNode (str "T")) [schema_T].
(** A dict, and another entry for it. *)
Definition u3 : change :=
  Change [] (str "d") [Some (Obj 8)]
    [((8%N, FEntries), CEntries [(Prim 100, Obj 3)]);
     ((3%N, FAttr (str "v")), CValue (Some (Prim 31)))]
    (SNode (str "D"))
    [(str "D", NDict (SPrimitive (str "STRING")) (SNode (str "T"))); schema_T].
Definition u4 : change :=
  Change [] (str "d") [Some (Obj 8)]
    [((8%N, FEntries), CEntries [(Prim 101, Obj 4)])]
    (SNode (str "D"))
    [(str "D", NDict (SPrimitive (str "STRING")) (SNode (str "T"))); schema_T].

Definition run (d : dir) (m : manager) (u : change) : dir * manager :=
  fst (update lx1 pop_first 0%N (str "R") d m u NoCut).
Definition r0 := (new_dir (str "R"), new_manager).
Definition r1 := run (fst r0) (snd r0) u1.
Definition r2 := run (fst r1) (snd r1) u2.
Definition r3 := run (fst r2) (snd r2) u3.
Definition r4 := run (fst r3) (snd r3) u4.
Definition st0 := initial_state.
Definition st1 := applied 0%N st0 u1 (str "R").
Definition st2 := applied 0%N st1 u2 (str "S").
Definition st3 := applied 0%N st2 u3 (str "R").
Definition st4 := applied 0%N st3 u4 (str "R").


Definition managers1 : list manager := [snd r4; snd r3; snd r2; snd r1; snd r0].
Definition kinds1 : list revision_kind :=
  [Creation; AttributeUpdate [] (str "docs"); AttributeUpdate docs (str "t");
   AttributeUpdate [] (str "d"); AttributeUpdate [] (str "d")].
Definition states1 : list state := [st0; st1; st2; st3; st4].

Ltac one_update at_id ps :=
  refine (history_step ty1 struct1 0%N (str "R") _ lx1 pop_first _ _ _ _ _ _ _ at_id _ _ _ _ _ _ _ _);
  [ |now left|vm_compute; reflexivity|vm_compute; reflexivity
  |apply (change_checked lx1 ty1 struct1 0%N) with (paths := ps); vm_compute; reflexivity
  | |vm_compute; reflexivity|vm_compute; reflexivity].
Ltac kept at_id :=
  apply (keeping_edges (str "R") _ _ at_id);
  [vm_compute; reflexivity|vm_compute; auto|vm_compute; repeat constructor].

(** No attribute gets a new schema in this history. *)
Example C29_hypotheses_met :
  history ty1 struct1 0%N (str "R") (keeping (str "R")) lx1 pop_first
    (fst r4) managers1 kinds1 states1.
Proof.
  unfold kinds1, states1, managers1.
  change [Creation; AttributeUpdate [] (str "docs"); AttributeUpdate docs (str "t");
    AttributeUpdate [] (str "d"); AttributeUpdate [] (str "d")]
    with ((((([Creation] ++ [AttributeUpdate (u_path u1) (u_attr u1)])
      ++ [AttributeUpdate (u_path u2) (u_attr u2)])
      ++ [AttributeUpdate (u_path u3) (u_attr u3)])
      ++ [AttributeUpdate (u_path u4) (u_attr u4)])).
  change [st0; st1; st2; st3; st4]
    with ((((([st0] ++ [applied 0%N st0 u1 (str "R")]) ++ [applied 0%N st1 u2 (str "S")])
      ++ [applied 0%N st2 u3 (str "R")]) ++ [applied 0%N st3 u4 (str "R")])).
  one_update (str "R") [[]; [DictGetValues]]; [|kept (str "R")].
  one_update (str "R") [[]; [DictGetValues]]; [|kept (str "R")].
  one_update (str "S") [@nil action]; [|kept (str "S")].
  one_update (str "R") [[]; [ListExplode]]; [|kept (str "R")].
  apply history_new.
Qed.

Example C30_hypotheses_met :
  history ty1 struct1 0%N (str "R") (replacing ty1 0%N (str "R")) lx1 pop_first
    (fst r4) managers1 kinds1 states1.
Proof.
  apply (history_weaken _ _ _ _ (keeping (str "R"))); [|exact C29_hypotheses_met].
  exact (keeping_replacing ty1 0%N (str "R")).
Qed.

(** What the last manager shows: the documents with the new attribute, which an
    update of the dict changed for the first document, and both entries. *)
Example seen1 :
  let show m := get_data_slice_at lx1 pop_first 0%N (str "R") (fst r4) m in
  show (snd r4) docs true = Done (Branch [Leaf (Some (Obj 1)); Leaf None; Leaf (Some (Obj 2))])
  /\ show (snd r4) (docs ++ [GetAttr (str "t"); GetAttr (str "v")]) false
     = Done (Branch [Leaf (Some (Prim 31)); Leaf None; Leaf (Some (Prim 40))])
  /\ show (snd r2) (docs ++ [GetAttr (str "t"); GetAttr (str "v")]) false
     = Done (Branch [Leaf (Some (Prim 30)); Leaf None; Leaf (Some (Prim 40))])
  /\ show (snd r4) [GetAttr (str "d"); DictGetKeys] false
     = Done (Branch [Leaf (Some (Prim 100)); Leaf (Some (Prim 101))])
  /\ show (snd r3) [GetAttr (str "d"); DictGetKeys] false
     = Done (Branch [Leaf (Some (Prim 100))])
  /\ show (snd r1) [GetAttr (str "d")] false
     = Raised (SchemaError (InvalidArgument [GetAttr (str "d")])).
Proof. vm_compute. repeat split; reflexivity. Qed.

(** What the second update of the documents and the second update of the dict do. *)
Example updates1 :
  after ty1 0%N (str "R") st1 u2 st2
  /\ targets_of 0%N st2 docs = targets_of 0%N st1 docs
  /\ targets_of 0%N st2 (docs ++ [GetAttr (str "t")]) = [Some (Obj 3); None; Some (Obj 4)]
  /\ after ty1 0%N (str "R") st3 u4 st4
  /\ st_data st3 (8%N, FEntries) = Some (CEntries [(Prim 100, Obj 3)])
  /\ st_data st4 (8%N, FEntries) = Some (CEntries [(Prim 100, Obj 3); (Prim 101, Obj 4)]).
Proof.
  split; [apply after_applied; vm_compute; reflexivity|].
  split; [vm_compute; reflexivity|]. split; [vm_compute; reflexivity|].
  split; [apply after_applied; vm_compute; reflexivity|].
  split; vm_compute; reflexivity.
Qed.

(** Loading a part gives the part: the dict alone has no documents. *)
Example part1 : exists s,
  get_data_slice lx1 pop_first (str "R") (fst r4) (snd r4) [[GetAttr (str "d"); DictGetKeys]] [] = Done s
  /\ evaluate_slice 0%N (str "R") s [GetAttr (str "d"); DictGetKeys]
     = Done (Branch [Leaf (Some (Prim 100)); Leaf (Some (Prim 101))])
  /\ evaluate_slice 0%N (str "R") s docs = Raised (SchemaError InvalidPath).
Proof. eexists. vm_compute. repeat split; reflexivity. Qed.

(** An old manager is refused, an old revision can be opened and branched. *)
Example old1 :
  snd (update lx1 pop_first 0%N (str "R") (fst r4) (snd r3) u4 NoCut) = Some (Raised ConcurrentUpdate)
  /\ (exists m, create_from_dir (fst r4) (Some 1) true = Done m
        /\ revision_history m = [Creation; AttributeUpdate [] (str "docs")])
  /\ (exists d m, branch (fst r4) (snd r4) 1 = Done (d, m)
        /\ revision_history m = [BranchOf 1]
        /\ snd (update lx1 pop_first 0%N (str "R") d m u2 NoCut) = Some (Done tt)).
Proof.
  split; [vm_compute; reflexivity|]. split.
  - eexists. vm_compute. repeat split; reflexivity.
  - eexists. eexists. split; [vm_compute; reflexivity|]. vm_compute. repeat split; reflexivity.
Qed.

(** * Findings *)

(** If an update gives an attribute a new schema but does not write this attribute
    for all entities that have it, then the values that are left over are shown or
    not, depending on what else is loaded. *)
Definition a1 : change :=
  Change [] (str "a") [Some (Obj 1)]
    [((1%N, FAttr (str "x")), CValue (Some (Obj 3)));
     ((3%N, FAttr (str "v")), CValue (Some (Prim 30)))]
    (SNode (str "S")) [(str "S", NEntity [(str "x", SNode (str "T"))]); schema_T].
Definition a2 : change :=
  Change [] (str "b") [Some (Obj 2)]
    [((2%N, FAttr (str "x")), CValue (Some (Obj 4)));
     ((4%N, FAttr (str "v")), CValue (Some (Prim 40)))]
    (SNode (str "S")) [(str "S", NEntity [(str "x", SNode (str "T"))]); schema_T].
Definition a3 : change :=
  Change [] (str "y") [Some (Obj 5)] [((5%N, FAttr (str "v")), CValue (Some (Prim 50)))]
    (SNode (str "T")) [schema_T].
Definition a4 : change :=
  Change [GetAttr (str "a")] (str "x") [Some (Obj 6)] [((6%N, FAttr (str "w")), CValue (Some (Prim 60)))]
    (SNode (str "U")) [schema_U].
Definition b_x : path := [GetAttr (str "b"); GetAttr (str "x")].

Definition q1 := run (fst r0) (snd r0) a1.
Definition q2 := run (fst q1) (snd q1) a2.
Definition q3 := run (fst q2) (snd q2) a3.
Definition q4 := run (fst q3) (snd q3) a4.
Definition sa1 := applied 0%N st0 a1 (str "R").
Definition sa2 := applied 0%N sa1 a2 (str "R").
Definition sa3 := applied 0%N sa2 a3 (str "R").
Definition sa4 := applied 0%N sa3 a4 (str "S").

Lemma left_over : history ty1 struct1 0%N (str "R") (fun _ _ => True) lx1 pop_first
  (fst q4) [snd q4; snd q3; snd q2; snd q1; snd r0]
  [Creation; AttributeUpdate [] (str "a"); AttributeUpdate [] (str "b");
   AttributeUpdate [] (str "y"); AttributeUpdate [GetAttr (str "a")] (str "x")]
  [st0; sa1; sa2; sa3; sa4].
Proof.
  change [Creation; AttributeUpdate [] (str "a"); AttributeUpdate [] (str "b");
    AttributeUpdate [] (str "y"); AttributeUpdate [GetAttr (str "a")] (str "x")]
    with ((((([Creation] ++ [AttributeUpdate (u_path a1) (u_attr a1)])
      ++ [AttributeUpdate (u_path a2) (u_attr a2)])
      ++ [AttributeUpdate (u_path a3) (u_attr a3)])
      ++ [AttributeUpdate (u_path a4) (u_attr a4)])).
  change [st0; sa1; sa2; sa3; sa4]
    with ((((([st0] ++ [applied 0%N st0 a1 (str "R")]) ++ [applied 0%N sa1 a2 (str "R")])
      ++ [applied 0%N sa2 a3 (str "R")]) ++ [applied 0%N sa3 a4 (str "S")])).
  one_update (str "S") [@nil action]; [|exact I].
  one_update (str "R") [@nil action]; [|exact I].
  one_update (str "R") [[]; [GetAttr (str "x")]]; [|exact I].
  one_update (str "R") [[]; [GetAttr (str "x")]]; [|exact I].
  apply history_new.
Qed.

Theorem C29_partial_loads_agree_without_restriction_refuted :
  exists lx pop ty struct root root_schema d ms ks sts m full part p,
    setting lx pop ty struct root root_schema
    /\ history ty struct root root_schema (fun _ _ => True) lx pop d ms ks sts /\ In m ms
    /\ get_data_slice lx pop root_schema d m [] [[]] = Done full
    /\ get_data_slice lx pop root_schema d m [p] [] = Done part
    /\ evaluate_slice root root_schema full p = Done (Leaf (Some (Obj 4)))
    /\ evaluate_slice root root_schema part p = Done (Leaf None).
Proof.
  exists lx1, pop_first, ty1, struct1, 0%N, (str "R").
  do 4 eexists. exists (snd q4). do 2 eexists. exists b_x.
  split; [exact setting1|]. split; [exact left_over|]. split; [now left|].
  split; [vm_compute; reflexivity|]. split; [vm_compute; reflexivity|].
  vm_compute. repeat split; reflexivity.
Qed.

(** It is documented that slices of the same manager can be put together
    (data_slice_manager.py:484-492). This is not so after an attribute was given a
    new schema, even if all of its values were replaced: bags that are loaded for
    another reason can bring an outdated value. *)
Definition c1 : change :=
  Change [] (str "x") [Some (Obj 3)] [((3%N, FAttr (str "v")), CValue (Some (Prim 30)))]
    (SNode (str "T")) [schema_T].
Definition c2 : change :=
  Change [] (str "x") [Some (Obj 6)] [((6%N, FAttr (str "w")), CValue (Some (Prim 60)))]
    (SNode (str "U")) [schema_U].
Definition c3 : change :=
  Change [] (str "y") [Some (Obj 4)] [((4%N, FAttr (str "v")), CValue (Some (Prim 40)))]
    (SNode (str "T")) [schema_T].
Definition w1 := run (fst r0) (snd r0) c1.
Definition w2 := run (fst w1) (snd w1) c2.
Definition w3 := run (fst w2) (snd w2) c3.
Definition sc1 := applied 0%N st0 c1 (str "R").
Definition sc2 := applied 0%N sc1 c2 (str "R").
Definition sc3 := applied 0%N sc2 c3 (str "R").

Lemma ty1_root o : ty1 o = str "R" -> o = 0%N.
Proof.
  intros E. destruct o as [|o]; [reflexivity|].
  do 4 (destruct o as [o|o|]; try discriminate E).
Qed.

Ltac replaced at_id :=
  apply (replacing_edges ty1 0%N (str "R") _ _ at_id);
  [vm_compute; reflexivity|vm_compute; reflexivity
  |intros o E _; apply ty1_root in E; subst o; vm_compute; discriminate
  |vm_compute; repeat constructor].

Lemma outdated : history ty1 struct1 0%N (str "R") (replacing ty1 0%N (str "R")) lx1 pop_first
  (fst w3) [snd w3; snd w2; snd w1; snd r0]
  [Creation; AttributeUpdate [] (str "x"); AttributeUpdate [] (str "x"); AttributeUpdate [] (str "y")]
  [st0; sc1; sc2; sc3].
Proof.
  change [Creation; AttributeUpdate [] (str "x"); AttributeUpdate [] (str "x");
    AttributeUpdate [] (str "y")]
    with (((([Creation] ++ [AttributeUpdate (u_path c1) (u_attr c1)])
      ++ [AttributeUpdate (u_path c2) (u_attr c2)])
      ++ [AttributeUpdate (u_path c3) (u_attr c3)])).
  change [st0; sc1; sc2; sc3]
    with (((([st0] ++ [applied 0%N st0 c1 (str "R")]) ++ [applied 0%N sc1 c2 (str "R")])
      ++ [applied 0%N sc2 c3 (str "R")])).
  one_update (str "R") [@nil action]; [|replaced (str "R")].
  one_update (str "R") [@nil action]; [|replaced (str "R")].
  one_update (str "R") [@nil action]; [|replaced (str "R")].
  apply history_new.
Qed.

Theorem C29_loaded_slices_combine_after_new_schemas_refuted :
  exists lx pop ty struct root root_schema d ms ks sts m s1 s2 s12 p1 p2,
    setting lx pop ty struct root root_schema
    /\ history ty struct root root_schema (replacing ty root root_schema) lx pop d ms ks sts
    /\ In m ms
    /\ get_data_slice lx pop root_schema d m [p1] [] = Done s1
    /\ get_data_slice lx pop root_schema d m [p2] [] = Done s2
    /\ get_data_slice lx pop root_schema d m [p1; p2] [] = Done s12
    /\ evaluate_slice root root_schema s1 p1 = Done (Leaf (Some (Obj 6)))
    /\ evaluate_slice root root_schema s12 p1 = Done (Leaf (Some (Obj 6)))
    /\ evaluate_slice root root_schema (slice_updated s1 s2) p1 = Done (Leaf (Some (Obj 3))).
Proof.
  exists lx1, pop_first, ty1, struct1, 0%N, (str "R").
  do 4 eexists. exists (snd w3). do 3 eexists.
  exists [GetAttr (str "x")], [GetAttr (str "y")].
  split; [exact setting1|]. split; [exact outdated|]. split; [now left|].
  split; [vm_compute; reflexivity|]. split; [vm_compute; reflexivity|].
  split; [vm_compute; reflexivity|].
  vm_compute. repeat split; reflexivity.
Qed.

Print Assumptions C29_loads_what_was_asked_for.
Print Assumptions C29_refuses_invalid_paths.
Print Assumptions C29_loads_exactly_valid_paths.
Print Assumptions C29_partial_loads_agree_with_a_full_load.
Print Assumptions C29_loaded_slices_combine.
Print Assumptions C29_partial_loads_agree_without_restriction_refuted.
Print Assumptions C29_loaded_slices_combine_after_new_schemas_refuted.
Print Assumptions C30_managers_show_their_revision.
Print Assumptions C30_revision_histories.
Print Assumptions C30_revisions_replay_the_updates.
Print Assumptions C30_first_revision.
Print Assumptions C30_every_revision_can_be_opened.
Print Assumptions C30_update_effect.
Print Assumptions C30_new_values.
Print Assumptions C30_read_back.
Print Assumptions C30_new_data.
Print Assumptions C30_updates_change_nothing_else.
Print Assumptions C30_updates_do_not_disturb_other_managers.
Print Assumptions C30_failed_updates_change_nothing.
Print Assumptions C30_only_the_latest_revision_can_be_updated.
Print Assumptions C30_branches.
Print Assumptions C30_read_only_managers.
Print Assumptions C30_read_only_copies.
