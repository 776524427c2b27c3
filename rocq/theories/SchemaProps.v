(** Properties C08, C09: the common schema and implicit casts. *)
From Coq Require Import NArith List Bool Permutation.
From Verif Require Import ObjectIdModel SchemaModel SchemaSpec SchemaProofs.
Import ListNotations.

(** ** C08: the common schema *)

(** It is the least upper bound of the schemas given (missing ones aside) ... *)
Theorem C08_least_upper_bound : forall l s, Forall item_wf l ->
  (common_schema l = Ok (Some s) <->
   (forall x, In x l -> ~ not_a_schema x) /\ schemas l <> [] /\ least_upper_bound (schemas l) s).
Proof. exact common_lub. Qed.
Print Assumptions C08_least_upper_bound.

(** ... nothing when there are only missing items ... *)
Theorem C08_nothing_from_nothing : forall l, Forall item_wf l ->
  (common_schema l = Ok None <-> forall x, In x l -> x = IMissing).
Proof. exact common_empty. Qed.
Print Assumptions C08_nothing_from_nothing.

(** ... and an error exactly when some item is not a schema or no schema is above
    all of them. *)
Theorem C08_error_iff_no_upper_bound : forall l, Forall item_wf l ->
  (fails (common_schema l) <->
   (exists x, In x l /\ not_a_schema x) \/ (forall u, ~ upper_bound (schemas l) u)).
Proof. exact common_fails. Qed.
Print Assumptions C08_error_iff_no_upper_bound.

(** Order, repetition and missing items do not matter. *)
Theorem C08_only_the_set_matters : forall l1 l2, Forall item_wf l1 -> Forall item_wf l2 ->
  (forall x, x <> IMissing -> (In x l1 <-> In x l2)) ->
  same_outcome (common_schema l1) (common_schema l2).
Proof. exact same_outcome_iff. Qed.
Print Assumptions C08_only_the_set_matters.

Theorem C08_order_does_not_matter : forall l1 l2, Forall item_wf l1 -> Permutation l1 l2 ->
  same_outcome (common_schema l1) (common_schema l2).
Proof.
  intros l1 l2 W P. apply same_outcome_iff; [exact W | eapply Permutation_Forall; eauto |].
  intros x _. split; apply Permutation_in; [exact P | now apply Permutation_sym].
Qed.
Print Assumptions C08_order_does_not_matter.

(** Grouping does not matter: a part may be replaced by its common schema. *)
Theorem C08_grouping_does_not_matter : forall l1 l2 r, Forall item_wf l1 -> Forall item_wf l2 ->
  common_schema l1 = Ok r ->
  same_outcome (common_schema (l1 ++ l2))
    (common_schema (match r with Some s => [item_of s] | None => [] end ++ l2)).
Proof. exact grouping. Qed.
Print Assumptions C08_grouping_does_not_matter.

(** The schema found for a slice of primitives is the least one above NONE and the
    types of all its values. *)
Theorem C08_data_schema : forall kinds,
  match data_schema kinds with
  | Some s => least_upper_bound (SD NoneT :: map SD kinds) s
  | None => forall u, ~ upper_bound (SD NoneT :: map SD kinds) u
  end.
Proof. exact data_schema_lub. Qed.
Print Assumptions C08_data_schema.

(** The bound on the fuel of the loop is never reached and the table has no
    malformed entry. *)
Theorem C08_table_well_formed : forall a b, common_dtype (type_id a) (type_id b) <> Malformed.
Proof. intros a b. destruct a, b; discriminate. Qed.
Print Assumptions C08_table_well_formed.

(** A schema id: metadata marks an explicit schema. *)
Definition some_schema : ObjectId := mkOid 5 0 kStartExplicitSchemaFlag 7.
Definition other_schema : ObjectId := mkOid 5 0 kStartExplicitSchemaFlag 8.

Example C08_hypotheses_met :
  item_wf (IObj some_schema) /\ is_schema some_schema = true /\
  common_schema [IDType Int32; IMissing; IDType Float32; IDType Int64] = Ok (Some (SD Float32)) /\
  common_schema [IDType Bool; IDType Int64] = Ok (Some (SD ObjectT)) /\
  common_schema [IObj some_schema; IDType NoneT; IObj some_schema] = Ok (Some (SO some_schema)) /\
  fails (common_schema [IObj some_schema; IDType NoneT; IObj other_schema]) /\
  fails (common_schema [IDType ItemIdT; IDType NoneT; IDType Int32]) /\
  data_schema [Int32; Float64] = Some (SD Float64).
Proof.
  repeat (apply conj; [first [reflexivity | eexists; reflexivity | repeat apply conj; reflexivity]|]).
  reflexivity.
Qed.

(** ** C09: implicit casts *)
Theorem C09_castable_iff_common : forall a b, schema_wf a -> schema_wf b ->
  (is_implicitly_castable a b = true <-> common_schema [item_of a; item_of b] = Ok (Some b)).
Proof. exact castable_common. Qed.
Print Assumptions C09_castable_iff_common.

Theorem C09_castable_is_promotion : forall a b, schema_wf a -> schema_wf b ->
  (is_implicitly_castable a b = true <-> schema_le a b).
Proof. exact castable_le. Qed.
Print Assumptions C09_castable_is_promotion.

Theorem C09_partial_order : forall a b c, schema_wf a -> schema_wf b -> schema_wf c ->
  is_implicitly_castable a a = true /\
  (is_implicitly_castable a b = true -> is_implicitly_castable b a = true -> a = b) /\
  (is_implicitly_castable a b = true -> is_implicitly_castable b c = true ->
   is_implicitly_castable a c = true).
Proof.
  intros a b c Wa Wb Wc. rewrite !castable_le by assumption. repeat apply conj.
  - apply schema_le_refl.
  - apply schema_le_antisym.
  - apply schema_le_trans.
Qed.
Print Assumptions C09_partial_order.

Example C09_hypotheses_met :
  schema_wf (SO some_schema) /\ is_implicitly_castable (SD NoneT) (SO some_schema) = true /\
  is_implicitly_castable (SD Int64) (SO some_schema) = false /\
  is_implicitly_castable (SD Int32) (SD Float32) = true /\
  is_implicitly_castable (SD Float32) (SD Int32) = false.
Proof. repeat apply conj; reflexivity. Qed.
