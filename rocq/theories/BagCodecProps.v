(** C46: serialized bags. BagCodecSpec.v says which bags can be serialized without a
    loss, BagReads.v what is read from a bag. *)
From Coq Require Import String NArith ZArith List Bool Arith Lia Permutation.
From Verif Require Import ObjectIdModel ObjectIdProofs SchemaModel ItemModel DataListModel DictModel DictSpec DictProofs
  SourceModel SourceSpec BagModel MergeModel BagSpec BagReads ReadProofs BagViewProofs BagFinalProofs BagProps
  BagCodecModel BagCodecSpec BagCodecResults.
Import ListNotations.
Local Open Scope nat_scope.

Section Props.
(** the sizes of allocations; of those of schemas all ids count *)
Variable asize : ObjectId -> N.
Hypothesis asize_ok : forall a, (asize a <= capacity a)%N.
Hypothesis schemas_full : forall a, is_schema a = true -> asize a = capacity a.
(** the orders in which hash maps are iterated where the bag is written and where it
    is read, and the orders of the parts of messages *)
Variable iter iter' : dmap -> dmap.
Hypothesis any_order : forall m, Permutation (iter m) m.
Hypothesis any_order' : forall m, Permutation (iter' m) m.
Variable ord : orders.
Hypothesis any_ord : any_orders ord.

(** A bag after any operations, with its fallbacks, is written; it is read where any
    other operations were done before. *)
Theorem C46_loaded_bag_is_the_same : forall ops ops' b,
  history asize ops -> history asize ops' ->
  let st := after iter ops in
  let st0 := after iter' ops' in
  has_bag st b -> (forall c, In c (depth_first st b) -> storable asize (own_seen st c)) ->
  exists d st' b', dump iter ord st b = Some d /\ load iter' st0 d = Some (st', b') /\
    has_bag st' b' /\ ~ has_bag st0 b' /\
    same_content asize (seen st b) (seen st' b') /\ is_mutable st' b' = is_mutable st b /\
    all_unchanged asize st0 st'.
Proof. exact (round_trip asize asize_ok schemas_full iter iter' any_order any_order' ord any_ord). Qed.
End Props.

(** ** Examples *)
Definition as_given : orders := mkOrders (fun l => l) (fun l => l) (fun l => l) (fun l => l).
Definition a_schema : ObjectId := mkOid 1 0 60 13.
Definition text (s : string) : value := val KText (text_of s).
Definition stored : list bag_op :=
  [ BNew true;                                                             (* bag 0 *)
    BSetFull 0 big "z" partial;
    BSetAttr 0 (obj 2) "x" (Some (int 5));
    BSetAttr 0 single "x" None;
    BEditList 0 a_list 1 (fun l => l ++ [Some (int 1)]);
    BEditDict 0 a_dict (DSetKey (Some (int 1)) None);
    BEditDict 0 a_schema (DSetKey (Some (text "x")) (Some (val KDType Int64)));
    BMakeImmutable 0;
    BWithFallbacks [0];                                                    (* bag 1 *)
    BNew true ].                                                           (* bag 2 *)
Example stored_history : history capacity stored.
Proof.
  apply (all_ok_history capacity stored []); [constructor|]. unfold stored. cbn [all_ok app].
  assert (E2 : exists_object capacity (obj 2)) by exists_tac.
  assert (E3 : exists_object capacity single) by exists_tac.
  assert (Wl : wf a_list) by (vm_compute; split; [|split; [|split]]; reflexivity).
  assert (Wd : wf a_dict) by (vm_compute; split; [|split; [|split]]; reflexivity).
  assert (Ws : wf a_schema) by (vm_compute; split; [|split; [|split]]; reflexivity).
  assert (Ab : (wf big /\ offset big = 0%N) /\ is_small_alloc big = false) by (split; [split; [vm_compute; split; [|split; [|split]]; reflexivity|reflexivity]|reflexivity]).
  assert (Pw := partial_wf). cbn [op_ok fresh_for].
  split; [exact I|]. split; [exact I|]. split; [split; [exact (proj1 Ab)|split; [vm_compute; congruence|split; [reflexivity|auto]]]|]. split; [exact I|].
  split; [exact E2|]. split; [exact I|]. split; [exact E3|]. split; [exact I|]. split; [exact Wl|]. split; [exact I|].
  split; [split; [exact Wd|discriminate]|]. split; [exact I|]. split; [split; [exact Ws|discriminate]|]. repeat (split; [exact I|]). exact I.
Qed.
Lemma stored_own c : In c [1; 0] -> storable capacity (own_seen (after as_stored stored) c).
Proof.
  assert (any : forall m, Permutation (as_stored m) m) by (intros; apply Permutation_refl).
  assert (cap : forall a, (capacity a <= capacity a)%N) by (intros; lia).
  intros [<-|[<-|[]]].
  - assert (Eb : nth_error (bags (after as_stored stored)) 1 = Some (mkBag 1 false false [0])) by (vm_compute; reflexivity).
    assert (El : nth_error (layers (after as_stored stored)) 1 = Some (mkLayer true None [] [] [] [])) by (vm_compute; reflexivity).
    unfold own_seen. rewrite Eb. cbn [impl]. remember (layers (after as_stored stored)) as h eqn:Eh. clear Eh Eb.
    assert (Ec := BagCodecProofs.chain_parent_none h 1 _ El eq_refl).
    assert (A : forall attr o, c_attr (read_through h [1]) attr o = None).
    { intros attr o. cbn [read_through c_attr get_attr]. unfold look_attr. rewrite Ec. now destruct (is_small_alloc o). }
    assert (D : forall o k, c_dict (read_through h [1]) o k = None).
    { intros o k. cbn [read_through c_dict]. cbn [get_from_dict]. unfold read_dict. rewrite Ec. reflexivity. }
    split; [constructor|intros attr o _ _ _ E; rewrite A in E; discriminate]; intros; rewrite ?A, ?D in *; try discriminate; auto. split; [discriminate|]. intros (_ & _ & attr & o' & _ & _ & _ & _ & Nn). rewrite A in Nn. congruence.
  - apply (BagCodecProofs.storable_same capacity (seen (after as_stored (firstn 7 stored)) 0)).
    { assert (E : own_seen (after as_stored stored) 0 = seen (after as_stored stored) 0).
      { unfold own_seen, seen. assert (Eb : nth_error (bags (after as_stored stored)) 0 = Some (mkBag 0 false false [])) by (vm_compute; reflexivity). rewrite Eb.
        assert (Ei : impls_of (after as_stored stored) 0 = [0]) by (vm_compute; reflexivity). rewrite Ei. reflexivity. }
      rewrite E. change stored with (firstn 7 stored ++ skipn 7 stored). apply (unchanged capacity cap as_stored any (firstn 7 stored) (skipn 7 stored) 0); [exact stored_history|vm_compute; lia|left; reflexivity]. }
    assert (Hi : history capacity ([BNew true] ++ firstn 6 (skipn 1 stored))) by exact (history_app capacity (firstn 7 stored) (skipn 7 stored) stored_history).
    destruct (last_write_result capacity cap as_stored any [BNew true] (firstn 6 (skipn 1 stored)) 0 Hi eq_refl eq_refl) as [_ A].
    destruct (writes_lists capacity cap as_stored any [BNew true] (firstn 6 (skipn 1 stored)) 0 _ Hi eq_refl eq_refl (MergeImplProofs.same_refl capacity _)) as [_ D].
    change ([BNew true] ++ firstn 6 (skipn 1 stored)) with (firstn 7 stored) in A, D.
    assert (A0 : forall attr o, c_attr (seen (after as_stored [BNew true]) 0) attr o = None) by (intros; cbn; unfold look_attr; now destruct (is_small_alloc o)).
    assert (D0 : forall o k, c_dict (seen (after as_stored [BNew true]) 0) o k = None) by reflexivity.
    assert (A1 : forall attr o, exists_object capacity o -> c_attr (seen (after as_stored (firstn 7 stored)) 0) attr o =
      if string_dec "x" attr then (if oid_eq_dec single o then Some None else if oid_eq_dec (obj 2) o then Some (Some (int 5)) else None)
      else if string_dec "z" attr then (if oid_eq_dec (allocation_of o) big then array_entry partial (offset o) else None) else None).
    { intros attr o V. rewrite A by auto. unfold stored. cbn [firstn skipn fold_left attr_after Nat.eqb ds_values partial]. rewrite A0. fold partial.
      destruct (string_dec "x" attr) as [<-|]; cbn [string_dec].
      - destruct (string_dec "z" "x"); [discriminate|]. destruct (oid_eq_dec single o); auto.
      - destruct (string_dec "z" attr); auto. now destruct (oid_eq_dec (allocation_of o) big), (array_entry partial (offset o)). }
    assert (D1 : forall o k, wf o -> c_dict (seen (after as_stored (firstn 7 stored)) 0) o k =
      if oid_eq_dec a_schema o then (if value_eqb (text "x") k then Some (Some (val KDType Int64)) else None)
      else if oid_eq_dec a_dict o then (if value_eqb (int 1) k then Some None else None) else None).
    { intros o k W. rewrite D by auto. unfold stored. cbn [firstn skipn fold_left dict_after Nat.eqb].
      replace (is_dict (allocation_of a_dict) || is_schema (allocation_of a_dict)) with true by reflexivity.
      replace (is_dict (allocation_of a_schema) || is_schema (allocation_of a_schema)) with true by reflexivity. cbn [andb].
      destruct (oid_eq_dec a_dict o) as [<-|]; [destruct (oid_eq_dec a_schema a_dict); [discriminate|]; reflexivity|]. destruct (oid_eq_dec a_schema o); reflexivity. }
    remember (seen (after as_stored (firstn 7 stored)) 0) as c eqn:Ec. clear Ec.
    assert (As : forall attr o, exists_object capacity o -> is_schema o = true -> c_attr c attr o = None).
    { intros attr o V Sc. rewrite A1 by auto. destruct (string_dec "x" attr).
      - destruct (oid_eq_dec single o) as [<-|]; [discriminate|]. destruct (oid_eq_dec (obj 2) o) as [<-|]; [discriminate|auto].
      - destruct (string_dec "z" attr); auto. destruct (oid_eq_dec (allocation_of o) big) as [E|]; auto. change (is_schema (allocation_of o) = true) in Sc. rewrite E in Sc. discriminate. }
    split; [constructor|].
    + intros. now apply As.
    + intros o k v W Sc Sm. rewrite D1 by auto. destruct (oid_eq_dec a_schema o) as [<-|].
      * destruct (value_eqb_spec (text "x") k) as [<-|]; [|discriminate]. intros E. injection E as <-. exists (text_of "x"). split; auto.
        split; [discriminate|]. split; [discriminate|]. intros _ _. right. left. eauto.
      * destruct (oid_eq_dec a_dict o) as [<-|]; discriminate.
    + intros attr o v V Sc Sm _ E. rewrite As in E by auto. discriminate.
    + intros o k v W Sc Sm. rewrite D1 by auto. destruct (oid_eq_dec a_schema o) as [<-|]; [discriminate|]. destruct (oid_eq_dec a_dict o) as [<-|]; [discriminate|]. split; [discriminate|].
      intros (_ & _ & attr & o' & _ & _ & V' & Ea & Nn). exfalso. apply Nn. apply As; auto. change (is_schema (allocation_of o') = true). now rewrite Ea.
    + intros attr o V Sm Ty E. rewrite A1 in E by auto. destruct (string_dec "x" attr) as [<-|Nx].
      * destruct (oid_eq_dec single o) as [<-|]; [discriminate|]. destruct (oid_eq_dec (obj 2) o); discriminate.
      * destruct (string_dec "z" attr) as [<-|]; [|discriminate]. destruct (oid_eq_dec (allocation_of o) big) as [Eb|]; [|discriminate].
        exists (obj 0), (int 100). assert (V0 : exists_object capacity (obj 0)) by exists_tac. split; auto. split; [rewrite Eb; reflexivity|]. rewrite A1 by auto. vm_compute. reflexivity.
Qed.
Example C46_hypotheses_met :
  (forall a, (capacity a <= capacity a)%N) /\ (forall a, is_schema a = true -> capacity a = capacity a) /\ any_orders as_given /\
  history capacity stored /\ history capacity demo /\ has_bag (after as_stored stored) 1 /\ fallbacks_of (after as_stored stored) 1 = [0] /\
  (forall c, In c (depth_first (after as_stored stored) 1) -> storable capacity (own_seen (after as_stored stored) c)) /\
  exists d st' b', dump as_stored as_given (after as_stored stored) 1 = Some d /\ load as_stored (after as_stored demo) d = Some (st', b') /\ b' = 8 /\
    map (fun i => c_attr (seen st' b') "z" (obj i)) [0; 1; 2]%N = [Some (Some (int 100)); Some None; None] /\
    map (c_attr (seen st' b') "x") [obj 2; single; obj 1] = [Some (Some (int 5)); Some None; None] /\
    c_list (seen st' b') a_list = Some [Some (int 1)] /\ c_dict (seen st' b') a_dict (int 1) = Some None /\
    c_dict (seen st' b') a_schema (text "x") = Some (Some (val KDType Int64)) /\ is_mutable st' b' = false.
Proof.
  split; [intros; lia|]. split; [auto|]. split; [repeat split; intros; apply Permutation_refl|]. split; [exact stored_history|]. split; [exact demo_history|].
  split; [vm_compute; lia|]. split; [reflexivity|]. split; [intros c I; apply stored_own; exact I|].
  assert (X : match dump as_stored as_given (after as_stored stored) 1 with
              | Some d => match load as_stored (after as_stored demo) d with
                          | Some (st', b') => b' = 8 /\
                              map (fun i => c_attr (seen st' b') "z" (obj i)) [0; 1; 2]%N = [Some (Some (int 100)); Some None; None] /\
                              map (c_attr (seen st' b') "x") [obj 2; single; obj 1] = [Some (Some (int 5)); Some None; None] /\
                              c_list (seen st' b') a_list = Some [Some (int 1)] /\ c_dict (seen st' b') a_dict (int 1) = Some None /\
                              c_dict (seen st' b') a_schema (text "x") = Some (Some (val KDType Int64)) /\ is_mutable st' b' = false
                          | None => False
                          end
              | None => False
              end) by (vm_compute; repeat split; reflexivity).
  destruct (dump as_stored as_given (after as_stored stored) 1) as [d|]; [|easy]. destruct (load as_stored (after as_stored demo) d) as [[st' b']|] eqn:El; [|easy].
  exists d, st', b'. auto.
Qed.

(** a bag with nothing about schemas *)
Lemma without_schemas h a l : nth_error h a = Some l -> parent l = None -> small l = [] -> dicts l = [] ->
  forallb (fun k => negb (is_schema (fst k))) (map fst (BagModel.big l)) = true -> schemas_ok capacity (read_through h [a]).
Proof.
  intros E P Es Ed F. assert (Ec := BagCodecProofs.chain_parent_none h a l E P).
  assert (A : forall attr o, is_schema o = true -> c_attr (read_through h [a]) attr o = None).
  { intros attr o Sc. cbn [read_through c_attr get_attr]. unfold look_attr. rewrite Ec. destruct (is_small_alloc o).
    - cbn. rewrite Es. reflexivity.
    - cbn [look_big]. destruct (a_find key_dec (BagModel.big l) (allocation_of o, attr)) as [x|] eqn:Ef; [|reflexivity].
      assert (In (allocation_of o, attr) (map fst (BagModel.big l))) by (apply (BagDumpProofs.a_find_keys key_dec); congruence).
      rewrite forallb_forall in F. specialize (F _ H). cbn [fst] in F. change (is_schema (allocation_of o)) with (is_schema o) in F. rewrite Sc in F. discriminate. }
  assert (D : forall o k, c_dict (read_through h [a]) o k = None).
  { intros o k. cbn [read_through c_dict get_from_dict]. unfold read_dict. rewrite Ec. cbn. rewrite Ed. reflexivity. }
  constructor; intros.
  - now apply A.
  - rewrite D in *. discriminate.
  - rewrite A in * by auto. discriminate.
  - rewrite D. split; [discriminate|]. intros (_ & _ & attr & o' & _ & _ & _ & Ea & Nn). exfalso. apply Nn, A. change (is_schema (allocation_of o') = true). now rewrite Ea.
Qed.
Definition removed : list bag_op :=
  [ BNew true;                                                             (* bag 0 *)
    BSetFull 0 big "z" partial;
    BSetAttr 0 (obj 0) "z" None;
    BMakeImmutable 0;
    BNew true;                                                             (* bag 1 *)
    BSetAttr 1 (obj 0) "z" (Some (int 7));
    BMakeImmutable 1;
    BWithFallbacks [0; 1] ].                                               (* bag 2 *)
(** Without the condition on removed values: an attribute is set for a whole
    allocation and removed again, in a bag that is before another one in the fallbacks;
    after loading, the value of the other is seen (a finding). *)
Theorem C46_removed_values_refuted :
  exists ops b attr o v, history capacity ops /\ has_bag (after as_stored ops) b /\ exists_object capacity o /\
    (forall c, In c (depth_first (after as_stored ops) b) -> schemas_ok capacity (own_seen (after as_stored ops) c)) /\
    exists d st' b', dump as_stored as_given (after as_stored ops) b = Some d /\ load as_stored init d = Some (st', b') /\
      c_attr (seen (after as_stored ops) b) attr o = Some None /\ c_attr (seen st' b') attr o = Some (Some v).
Proof.
  exists removed, 2, "z"%string, (obj 0), (int 7). assert (E0 : exists_object capacity (obj 0)) by exists_tac. split; [|split; [vm_compute; lia|split; [exact E0|split]]].
  - apply (all_ok_history capacity removed []); [constructor|]. unfold removed. cbn [all_ok app].
    assert (Ab : (wf big /\ offset big = 0%N)) by (split; [vm_compute; split; [|split; [|split]]; reflexivity|reflexivity]).
    assert (Pw := partial_wf). cbn [op_ok fresh_for].
    split; [exact I|]. split; [exact I|]. split; [split; [exact Ab|split; [vm_compute; congruence|split; [reflexivity|auto]]]|]. split; [exact I|].
    split; [exact E0|]. repeat (split; [first [exact I|exact E0]|]). exact I.
  - assert (Ed : depth_first (after as_stored removed) 2 = [2; 0; 1]) by (vm_compute; reflexivity). rewrite Ed.
    assert (X : forall c, In c [2; 0; 1] -> exists x l, nth_error (bags (after as_stored removed)) c = Some x /\ nth_error (layers (after as_stored removed)) (impl x) = Some l /\ parent l = None /\ small l = [] /\ dicts l = [] /\
      forallb (fun k => negb (is_schema (fst k))) (map fst (BagModel.big l)) = true).
    { intros c [<-|[<-|[<-|[]]]]; (eexists _, _; split; [vm_compute; reflexivity|]; split; [vm_compute; reflexivity|]; repeat split). }
    intros c Ic. destruct (X c Ic) as (x & l & Ex & El & P & Es & Di & F). unfold own_seen. rewrite Ex. exact (without_schemas _ _ l El P Es Di F).
  - assert (X : match dump as_stored as_given (after as_stored removed) 2 with
                | Some d => match load as_stored init d with
                            | Some (st', b') => c_attr (seen (after as_stored removed) 2) "z" (obj 0) = Some None /\ c_attr (seen st' b') "z" (obj 0) = Some (Some (int 7))
                            | None => False
                            end
                | None => False
                end) by (vm_compute; repeat split; reflexivity).
    destruct (dump as_stored as_given (after as_stored removed) 2) as [d|]; [|easy]. destruct (load as_stored init d) as [[st' b']|] eqn:El; [|easy].
    exists d, st', b'. auto.
Qed.
(** Metadata of a schema that was removed: what is written cannot be read (a
    finding). *)
Definition no_metadata : list bag_op := [ BNew true; BEditDict 0 a_schema (DSetKey (Some (text "__schema_metadata__")) None) ].
Theorem C46_removed_metadata_refuted :
  exists ops b, history capacity ops /\ has_bag (after as_stored ops) b /\ fallbacks_of (after as_stored ops) b = [] /\
    has_values capacity (seen (after as_stored ops) b) /\
    exists d, dump as_stored as_given (after as_stored ops) b = Some d /\ load as_stored init d = None.
Proof.
  exists no_metadata, 0. split; [|split; [vm_compute; lia|split; [vm_compute; reflexivity|split]]].
  - apply (all_ok_history capacity no_metadata []); [constructor|]. unfold no_metadata. cbn [all_ok app op_ok fresh_for].
    assert (Ws : wf a_schema) by (vm_compute; split; [|split; [|split]]; reflexivity).
    split; [exact I|]. split; [exact I|]. split; [split; [exact Ws|discriminate]|]. split; exact I.
  - assert (X : exists l, impls_of (after as_stored no_metadata) 0 = [0] /\ nth_error (layers (after as_stored no_metadata)) 0 = Some l /\ parent l = None /\ small l = [] /\ BagModel.big l = []).
    { eexists. split; [vm_compute; reflexivity|]. split; [vm_compute; reflexivity|]. repeat split. }
    destruct X as (l & Ei & El & P & Es & Eg). unfold seen. rewrite Ei. intros attr o V Sm Ty E. exfalso. revert E. cbn [read_through c_attr get_attr]. unfold look_attr.
    rewrite (BagCodecProofs.chain_parent_none _ 0 l El P), Sm. cbn. rewrite Eg. discriminate.
  - assert (X : match dump as_stored as_given (after as_stored no_metadata) 0 with
                | Some d => match load as_stored init d with Some _ => False | None => True end
                | None => False
                end) by (vm_compute; exact I).
    destruct (dump as_stored as_given (after as_stored no_metadata) 0) as [d|]; [|easy]. exists d. split; auto. now destruct (load as_stored init d).
Qed.

Print Assumptions C46_loaded_bag_is_the_same.
Print Assumptions C46_removed_values_refuted.
Print Assumptions C46_removed_metadata_refuted.
