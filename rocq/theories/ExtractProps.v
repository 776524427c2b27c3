(** C44: kd.extract returns the part of the bag that a slice reaches. *)

From Coq Require Import String List NArith Arith Bool Lia.
From Verif Require Import ExtractModel ExtractSpec ExtractTermination ExtractProofs ExtractCheck.
Import ListNotations.
Open Scope string_scope.
Open Scope list_scope.

(** Extraction succeeds, and the new bag has the attributes, lists, dicts and
    schemas reached from the slice by following the schemas, with the same
    values, and nothing else. *)
Theorem C44_extracts_the_reachable_part : forall src ds sch real,
  well_formed src ds sch real ->
  exists new, extract src ds sch = Ok new /\ extracted src ds sch [new].
Proof. exact extract_ok. Qed.

(** What a user reads from the extracted slice, along any path of attributes,
    list positions and dict keys, is what they read from the original. *)
Theorem C44_same_answers : forall src ds sch real new it path,
  well_formed src ds sch real -> extract src ds sch = Ok new -> In it ds ->
  read [new] path it sch = read src path it sch.
Proof.
  intros src ds sch real new it path W E H.
  destruct (extract_ok src ds sch real W) as [new' [E' X]]. assert (new' = new) by congruence. subst new'.
  apply (read_same src ds sch real [new] W X). intros n. apply reach_root. exact H.
Qed.

(** The extracted part is complete in itself: the same things can be reached in
    it. *)
Theorem C44_self_contained : forall src ds sch real new,
  well_formed src ds sch real -> extract src ds sch = Ok new ->
  forall n, reach [new] ds sch n <-> reach src ds sch n.
Proof.
  intros src ds sch real new W E. destruct (extract_ok src ds sch real W) as [new' [E' X]].
  assert (new' = new) by congruence. subst new'. apply (reach_same src ds sch real [new] W X).
Qed.

(** Extraction comes to an end for every bag, also if items refer to each
    other in cycles, or if the data does not agree with its schemas. *)
Theorem C44_terminates : forall src ds sch, extract src ds sch <> Err OutOfFuel.
Proof. exact extract_ends. Qed.

(** ** Examples *)

Definition ent (n : N) (cap off : nat) : id := mkId (mkAlloc KEntity cap n) off.
Definition lst (n : N) (off : nat) : id := mkId (mkAlloc KList 1 n) off.
Definition dct (n : N) (off : nat) : id := mkId (mkAlloc KDict 1 n) off.
Definition scm (n : N) (cap off : nat) : id := mkId (mkAlloc (KSchema false) cap n) off.
Definition nofollow (n : N) (cap off : nat) : id := mkId (mkAlloc (KSchema true) cap n) off.

Definition int (v : N) : item := IPrim 1 v.
Definition text (v : N) : item := IPrim 2 v.
Definition tint : item := IDType (TPrim 1).
Definition ttext : item := IDType (TPrim 2).
Definition tobject : item := IDType TObject.

(** Three people, in one allocation with room for four: each has a name; they
    know each other in a cycle; the first has a list of people, and a dict from
    text to objects; the schema has metadata. There is a fourth attribute that
    is not in the schema, and a person of another allocation whom nobody
    knows. The names of the first layer hide those of the second. *)
Definition person (i : nat) : id := ent 1 4 i.
Definition stranger : id := ent 2 1 0.
Definition toy (i : nat) : id := ent 3 4 i.
Definition meta : id := ent 4 1 0.
Definition s_person : id := scm 10 1 0.
Definition s_people : id := scm 11 1 0.
Definition s_toys : id := scm 12 1 0.
Definition s_toy (i : nat) : id := scm 13 4 i.
Definition s_meta : id := scm 14 1 0.
Definition people : id := lst 20 0.
Definition toys : id := dct 21 0.

Definition ex_layer1 : layer := mkLayer
  [((person 0, "people"), Some (IId people)); ((person 0, "toys"), Some (IId toys));
   ((person 0, "secret"), Some (int 7)); ((stranger, "name"), Some (text 9));
   ((toy 0, "__schema__"), Some (IId (s_toy 0))); ((toy 1, "__schema__"), Some (IId (s_toy 1)));
   ((toy 0, "size"), Some (int 3)); ((toy 1, "owner"), Some (IId (person 2)));
   ((meta, "__schema__"), Some (IId s_meta)); ((meta, "doc"), Some (text 5))]
  [((i_alloc (person 0), "name"), [Some (Some (text 1)); Some (Some (text 2)); Some None])]
  [(people, [Some (IId (person 1)); None; Some (IId (person 0))])]
  [((toys, text 1), Some (IId (toy 0))); ((toys, text 2), Some (IId (toy 1))); ((toys, text 3), None)]
  [((s_person, "name"), Some ttext); ((s_person, "friend"), Some (IId s_person));
   ((s_person, "people"), Some (IId s_people)); ((s_person, "toys"), Some (IId s_toys));
   ((s_person, "__schema_name__"), Some (text 8)); ((s_person, "__schema_metadata__"), Some (IId meta));
   ((s_people, "__items__"), Some (IId s_person));
   ((s_toys, "__keys__"), Some ttext); ((s_toys, "__values__"), Some tobject);
   ((s_toy 0, "size"), Some tint); ((s_toy 1, "owner"), Some (IId s_person));
   ((s_meta, "doc"), Some ttext)].
Definition ex_layer2 : layer := mkLayer
  [((person 0, "name"), Some (text 6));
   ((person 0, "friend"), Some (IId (person 1))); ((person 1, "friend"), Some (IId (person 2)));
   ((person 2, "friend"), Some (IId (person 0)))]
  [] [] [((toys, text 3), Some (IId (toy 2)))] [].
Definition ex_bag : bag := [ex_layer1; ex_layer2].

Definition ex_real (al : alloc) : nat := if alloc_eq_dec al (i_alloc (person 0)) then 3 else a_cap al.
Definition ex_nodes : list node :=
  [Inst (person 0) s_person; Inst (person 1) s_person; Inst (person 2) s_person; Sch s_person;
   Inst people s_people; Sch s_people; Inst toys s_toys; Sch s_toys;
   Obj (toy 0); Inst (toy 0) (s_toy 0); Sch (s_toy 0); Obj (toy 1); Inst (toy 1) (s_toy 1); Sch (s_toy 1);
   Obj meta; Inst meta s_meta; Sch s_meta].

Example C44_hypotheses_met : well_formed ex_bag [IId (person 0)] (IId s_person) ex_real.
Proof.
  apply (check_ok _ _ _ _ ex_nodes).
  - vm_compute. reflexivity.
  - intros al. unfold ex_real. destruct (alloc_eq_dec al (i_alloc (person 0))) as [->|_]; [cbn|]; lia.
Qed.

Example C44_extracts_example : exists new,
  extract ex_bag [IId (person 0)] (IId s_person) = Ok new /\
  value [new] (person 0) "name" = Some (text 1) /\
  value [new] (person 2) "friend" = Some (IId (person 0)) /\
  get_list [new] people = Some [Some (IId (person 1)); None; Some (IId (person 0))] /\
  get_dict [new] toys (text 3) = Some None /\
  value [new] (toy 1) "owner" = Some (IId (person 2)) /\
  value [new] meta "doc" = Some (text 5) /\
  value [new] (person 0) "secret" = None /\ value [new] stranger "name" = None /\
  read [new] [Attr "toys"; Key (text 2); Attr "owner"; Attr "friend"; Attr "people"; At 0; Attr "name"]
    (IId (person 0)) (IId s_person) = Some (text 2, ttext).
Proof. eexists. vm_compute. repeat split; reflexivity. Qed.

(** ** What the code does not do *)

(** The schemas of objects made together share an allocation. If they give an
    attribute different types, the slice cannot be extracted, although each of
    its objects can: extract.cc:882-905 reads the objects of one type with the
    flag for whole allocations left over from the attribute before. *)
Definition mixed_layer : layer := mkLayer
  [((ent 1 4 0, "__schema__"), Some (IId (scm 2 4 0))); ((ent 1 4 1, "__schema__"), Some (IId (scm 2 4 1)));
   ((ent 1 4 2, "__schema__"), Some (IId (scm 2 4 2)))]
  [((i_alloc (ent 1 4 0), "a"), [Some (Some (int 1)); Some (Some (int 2)); Some (Some (int 3))]);
   ((i_alloc (ent 1 4 0), "b"), [Some (Some (int 1)); Some (Some (text 2)); Some (Some (int 3))])]
  [] []
  [((scm 2 4 0, "a"), Some tint); ((scm 2 4 1, "a"), Some tint); ((scm 2 4 2, "a"), Some tint);
   ((scm 2 4 0, "b"), Some tint); ((scm 2 4 1, "b"), Some ttext); ((scm 2 4 2, "b"), Some tint)].

Theorem C44_mixed_objects_refuted : exists src ds,
  (forall it, In it ds -> exists real, well_formed src [it] (IDType TObject) real) /\
  (forall it, In it ds -> exists new, extract src [it] (IDType TObject) = Ok new) /\
  extract src ds (IDType TObject) = Err BadPrimitive.
Proof.
  exists [mixed_layer], [IId (ent 1 4 0); IId (ent 1 4 1); IId (ent 1 4 2)].
  assert (WF : forall i, i < 3 -> exists real, well_formed [mixed_layer] [IId (ent 1 4 i)] (IDType TObject) real).
  { intros i Hi. set (real := fun al => if alloc_eq_dec al (i_alloc (ent 1 4 0)) then 3 else a_cap al).
    exists real.
    apply (check_ok _ _ _ _ [Obj (ent 1 4 i); Inst (ent 1 4 i) (scm 2 4 i); Sch (scm 2 4 i)]).
    - destruct i as [|[|[|i]]]; [vm_compute; reflexivity|vm_compute; reflexivity|vm_compute; reflexivity|lia].
    - intros al. unfold real. destruct (alloc_eq_dec al (i_alloc (ent 1 4 0))) as [->|_]; [cbn|]; lia. }
  split; [|split].
  - intros it [<-|[<-|[<-|[]]]]; apply WF; lia.
  - intros it H. assert (K : exists real, well_formed [mixed_layer] [it] (IDType TObject) real).
    { destruct H as [<-|[<-|[<-|[]]]]; apply WF; lia. }
    destruct K as [real K]. destruct (extract_ok _ _ _ _ K) as [new [E _]]. exists new. exact E.
  - vm_compute. reflexivity.
Qed.

(** An item that is reached with two schemas is extracted with the schema seen
    first only (the TODO of extract.cc:295). *)
Definition twice_layer : layer := mkLayer
  [((ent 1 1 0, "x"), Some (IId (ent 2 1 0))); ((ent 1 1 0, "y"), Some (IId (ent 2 1 0)));
   ((ent 2 1 0, "a"), Some (int 1)); ((ent 2 1 0, "b"), Some (int 2))]
  [] [] []
  [((scm 1 1 0, "x"), Some (IId (scm 2 1 0))); ((scm 1 1 0, "y"), Some (IId (scm 3 1 0)));
   ((scm 2 1 0, "a"), Some tint); ((scm 3 1 0, "b"), Some tint)].

Theorem C44_two_schemas_refuted : exists src x s new path,
  extract src [IId x] (IId s) = Ok new /\
  read src path (IId x) (IId s) <> None /\ read [new] path (IId x) (IId s) = None.
Proof.
  exists [twice_layer], (ent 1 1 0), (scm 1 1 0). eexists. exists [Attr "y"; Attr "b"].
  split; [vm_compute; reflexivity|]. split; [vm_compute; discriminate|vm_compute; reflexivity].
Qed.

(** An object without a schema to follow is extracted with its data if it is
    in a slice with another object whose schema is followed
    (extract.cc:951-1007). *)
Definition leak_layer : layer := mkLayer
  [((ent 1 1 0, "__schema__"), Some (IId (scm 2 1 0))); ((ent 2 1 0, "__schema__"), Some (IId (nofollow 3 1 0)));
   ((ent 1 1 0, "a"), Some (int 1)); ((ent 2 1 0, "a"), Some (int 2))]
  [] [] [] [((scm 2 1 0, "a"), Some tint)].

Theorem C44_nofollow_objects_refuted : exists src x y a,
  (exists new, extract src [IId x] (IDType TObject) = Ok new /\ value [new] x a = None) /\
  (exists new, extract src [IId y; IId x] (IDType TObject) = Ok new /\ value [new] x a <> None) /\
  ~ attr_scope src [IId y; IId x] (IDType TObject) x a.
Proof.
  exists [leak_layer], (ent 2 1 0), (ent 1 1 0), "a". split; [|split].
  - eexists. split; [vm_compute; reflexivity|vm_compute; reflexivity].
  - eexists. split; [vm_compute; reflexivity|vm_compute; discriminate].
  - assert (C : forall n, reach [leak_layer] [IId (ent 1 1 0); IId (ent 2 1 0)] (IDType TObject) n ->
      In n [Obj (ent 1 1 0); Inst (ent 1 1 0) (scm 2 1 0); Sch (scm 2 1 0);
            Obj (ent 2 1 0); Inst (ent 2 1 0) (nofollow 3 1 0); Sch (nofollow 3 1 0)]).
    { intros n. apply closed_ok. vm_compute. reflexivity. }
    intros [[K _]|[s [t [K [F _]]]]]; [discriminate|]. specialize (C _ K).
    assert (Es : s = nofollow 3 1 0).
    { destruct C as [C|[C|[C|[C|[C|[C|[]]]]]]]; try discriminate; inversion C; reflexivity. }
    subst s. discriminate F.
Qed.

(** The new bag does not always keep the mark that an attribute was removed: it
    is kept for single items, and dropped for a whole allocation without any
    value (data_bag.cc:1156-1205). *)
Definition removed_layer : layer := mkLayer []
  [((i_alloc (ent 1 4 0), "a"), [Some None; Some None; Some None])] [] [] [((scm 1 1 0, "a"), Some tint)].

Theorem C44_removed_values_refuted : exists src ds s x a real,
  well_formed src ds (IId s) real /\ well_formed src [IId x] (IId s) real /\ In (IId x) ds /\
  attr_scope src ds (IId s) x a /\ get_attr src x a = Some None /\
  (exists new, extract src [IId x] (IId s) = Ok new /\ get_attr [new] x a = Some None) /\
  (exists new, extract src ds (IId s) = Ok new /\ get_attr [new] x a = None).
Proof.
  set (real := fun al => if alloc_eq_dec al (i_alloc (ent 1 4 0)) then 3 else a_cap al).
  assert (RC : forall al, real al <= a_cap al).
  { intros al. unfold real. destruct (alloc_eq_dec al (i_alloc (ent 1 4 0))) as [->|_]; [cbn|]; lia. }
  exists [removed_layer], [IId (ent 1 4 0); IId (ent 1 4 1); IId (ent 1 4 2)], (scm 1 1 0), (ent 1 4 1), "a", real.
  split; [|split; [|split; [|split; [|split; [|split]]]]].
  - apply (check_ok _ _ _ _ [Inst (ent 1 4 0) (scm 1 1 0); Inst (ent 1 4 1) (scm 1 1 0); Inst (ent 1 4 2) (scm 1 1 0); Sch (scm 1 1 0)]);
      [vm_compute; reflexivity|exact RC].
  - apply (check_ok _ _ _ _ [Inst (ent 1 4 1) (scm 1 1 0); Sch (scm 1 1 0)]); [vm_compute; reflexivity|exact RC].
  - right. now left.
  - right. exists (scm 1 1 0), tint. split; [|split; [reflexivity|split; [repeat split; discriminate|reflexivity]]].
    apply (reach_root _ _ _ (IId (ent 1 4 1))); [right; now left|constructor].
  - reflexivity.
  - eexists. split; [vm_compute; reflexivity|vm_compute; reflexivity].
  - eexists. split; [vm_compute; reflexivity|vm_compute; reflexivity].
Qed.

Print Assumptions C44_extracts_the_reachable_part.
Print Assumptions C44_same_answers.
Print Assumptions C44_self_contained.
Print Assumptions C44_terminates.
Print Assumptions C44_mixed_objects_refuted.
Print Assumptions C44_two_schemas_refuted.
Print Assumptions C44_nofollow_objects_refuted.
Print Assumptions C44_removed_values_refuted.
