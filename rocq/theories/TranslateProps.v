(** Properties of kd.slices.translate. *)
From Coq Require Import NArith ZArith List Bool Arith Lia.
From Verif Require Import ObjectIdModel SchemaModel ItemModel DictModel DictProofs SliceModel
  SliceOpsModel SliceOpsSpec SubsliceModel SubsliceSpec GroupModel GroupSpec GroupKeysProofs GroupProofs
  TranslateModel TranslateSpec TranslateProofs TranslateTopProofs TranslateGroupModel TranslateGroupTopProofs.
Import ListNotations.
Local Open Scope nat_scope.

(** The result has an item for each key to translate: the value at the place of the key in the
    row of keys that belongs to it *)
Theorem C56_translate : forall same is_nan cast schema_ok outer e to_shape keys_to keys_from values_shape values_from res,
  setting same is_nan cast outer e to_shape keys_to keys_from values_shape values_from ->
  translate same is_nan cast schema_ok to_shape keys_to keys_from values_shape values_from = TOk res ->
  let rows := chunks e (k_items keys_from) in
  let value_rows := chunks e (stretched values_from values_shape (outer ++ [e])) in
  exists casted, cast keys_to = Some casted /\ length res = length keys_to /\
    Forall2 (fun x r => translated (fst (fst x)) (snd (fst x)) (snd x) r)
      (combine (stretched (combine rows value_rows) outer to_shape) casted) res.
Proof. intros * (A & B & C & D & E & F & G & H). exact (translate_ok _ _ _ _ A B C _ _ _ _ _ _ _ D E F G H res). Qed.

(** When it succeeds: the shapes fit, the keys can be cast and are different in each row, and a
    dict can have them *)
Theorem C56_succeeds : forall same is_nan cast schema_ok outer e to_shape keys_to keys_from values_shape values_from,
  setting same is_nan cast outer e to_shape keys_to keys_from values_shape values_from ->
  (exists res, translate same is_nan cast schema_ok to_shape keys_to keys_from values_shape values_from = TOk res) <->
  is_prefix values_shape (outer ++ [e]) = true /\ is_prefix outer to_shape = true /\ cast keys_to <> None /\
  Forall (distinct (same_value value same (nan_in value is_nan (k_dtype keys_from)))) (chunks e (k_items keys_from)) /\
  schema_ok = true /\ (forall k, In (Some k) (k_items keys_from) -> possible_key k).
Proof. intros * (A & B & C & D & _). exact (translate_succeeds _ _ _ _ A B _ _ _ _ _ _ _ D). Qed.

(** Keys without a dimension are refused *)
Theorem C56_item : forall same is_nan cast schema_ok to_shape keys_to keys_from values_shape values_from,
  k_shape keys_from = [] ->
  exists er, translate same is_nan cast schema_ok to_shape keys_to keys_from values_shape values_from = TErr er.
Proof. intros * E. unfold translate. rewrite E. cbn [rev]. destruct (negb _); eexists; reflexivity. Qed.

(** The value is determined by the keys and the values *)
Theorem C56_one_value : forall same is_nan cast schema_ok outer e to_shape keys_to keys_from values_shape values_from,
  setting same is_nan cast outer e to_shape keys_to keys_from values_shape values_from ->
  (exists res, translate same is_nan cast schema_ok to_shape keys_to keys_from values_shape values_from = TOk res) ->
  forall ks vs key r r', In ks (chunks e (k_items keys_from)) -> translated ks vs key r -> translated ks vs key r' -> r = r'.
Proof. exact translate_one_value. Qed.

(** The keys themselves are translated to their values *)
Theorem C56_own_keys : forall same is_nan cast schema_ok outer e keys_from values_shape values_from res,
  setting same is_nan cast outer e (outer ++ [e]) (k_items keys_from) keys_from values_shape values_from ->
  cast (k_items keys_from) = Some (k_items keys_from) ->
  translate same is_nan cast schema_ok (outer ++ [e]) (k_items keys_from) keys_from values_shape values_from = TOk res ->
  res = map2 (fun k v => match k with Some _ => v | None => None end)
          (k_items keys_from) (stretched values_from values_shape (outer ++ [e])).
Proof. exact translate_own_keys. Qed.

(** Texts *)
Definition txt (n : N) : value := existT cval KText [n].
Definition int (z : Z) : value := existT cval KInt32 z.
Definition no_nan (_ : value) : bool := false.
(** keys_to = [['a', 'd'], ['c', None, 'a']], keys_from = [['a', 'b'], ['c', None]], values_from = [[1, 2], [3, 4]] *)
Definition ex_to : shape := [[2]; [2; 3]].
Definition ex_keys_to : list ditem := [Some (txt 97); Some (txt 100); Some (txt 99); None; Some (txt 97)].
Definition ex_keys (c : N) : key_slice value := mkKey [[2]; [2; 2]] (Single true) [Some (txt 97); Some (txt c); Some (txt 99); None].
Definition ex_values : list ditem := map (fun z => Some (int z)) [1; 2; 3; 4]%Z.
Definition translate_texts := translate value_eqb no_nan Some true.
Example C56_hypotheses_met :
  setting value_eqb no_nan Some [[2]] [2; 2] ex_to ex_keys_to (ex_keys 98) [[2]; [2; 2]] ex_values /\
  translate_texts ex_to ex_keys_to (ex_keys 98) [[2]; [2; 2]] ex_values = TOk [Some (int 1); None; Some (int 3); None; None] /\
  (* one value for each row *)
  translate_texts ex_to ex_keys_to (ex_keys 98) [[2]] [Some (int 7); None] = TOk [Some (int 7); None; None; None; None] /\
  (* one row of keys for all *)
  translate_texts ex_to ex_keys_to (mkKey [[2]] (Single true) [Some (txt 99); Some (txt 97)]) [[2]] [Some (int 5); Some (int 6)]
    = TOk [Some (int 6); None; Some (int 5); None; Some (int 6)] /\
  translate_texts ex_to ex_keys_to (ex_keys 97) [[2]; [2; 2]] ex_values = TErr EDuplicates /\
  translate_texts ex_to ex_keys_to (ex_keys 98) [[3]] [None; None; None] = TErr EValues /\
  translate_texts [[2]] [None; None] (mkKey [[1]; [1]] (Single true) [Some (txt 97)]) [] [None] = TErr EKeysTo /\
  translate_texts [] [None] (mkKey [[1]] (Single false) [Some (existT cval KFloat32 1%N)]) [] [None] = TErr EKeyType.
Proof.
  split.
  - split; [split |].
    + intros a b H. rewrite value_eqb_sym. exact H.
    + intros a b c H1 H2. destruct (value_eqb_spec a b); [| discriminate]. subst. exact H2.
    + split; [discriminate |]. split; [intros v _; apply value_eqb_refl |].
      split; [split; [reflexivity | reflexivity | discriminate] |].
      split; [cbn; auto |]. split; [cbn; auto |]. split; [cbn; auto |]. intros l l' H. inversion H; reflexivity.
  - vm_compute. repeat split; reflexivity.
Qed.

(** Different keys are not enough: floats in a slice of objects are refused *)
Theorem C56_float_keys_refuted : exists keys_from,
  setting value_eqb no_nan Some [] [1] [] [None] keys_from [] [None] /\
  Forall (distinct eq) (chunks [1] (k_items keys_from)) /\
  translate value_eqb no_nan Some true [] [None] keys_from [] [None] = TErr EKeyType.
Proof.
  exists (mkKey [[1]] Mixed [Some (existT cval KFloat32 1%N)]). split; [| split; [| reflexivity]].
  - split; [split |].
    + intros a b H. rewrite value_eqb_sym. exact H.
    + intros a b c H1 H2. destruct (value_eqb_spec a b); [| discriminate]. subst. exact H2.
    + split; [discriminate |]. split; [intros v _; apply value_eqb_refl |].
      split; [split; [reflexivity | reflexivity | discriminate] |].
      split; [cbn; auto |]. split; [cbn; auto |]. split; [cbn; auto |]. intros l l' H. inversion H; reflexivity.
  - constructor; [| constructor]. intros [| i] [| [| j]] v w L; cbn; try discriminate; lia.
Qed.

(** ** kd.translate_group *)

(** For each key to translate there are the values of all equal keys of the row that belongs to it,
    in their order *)
Theorem C56_translate_group : forall same is_nan cast schema_ok outer e to_shape keys_to keys_from values_from res,
  group_setting same is_nan cast outer e to_shape keys_to keys_from values_from ->
  translate_group same is_nan cast schema_ok to_shape keys_to keys_from (outer ++ [e]) values_from = TGOk res ->
  let rows := chunks e (k_items keys_from) in
  let value_rows := chunks e values_from in
  exists casted, cast keys_to = Some casted /\ length res = length keys_to /\
    Forall2 (fun x r => r = with_key (fst (fst x)) (snd (fst x)) (snd x))
      (combine (stretched (combine rows value_rows) outer to_shape) casted) res.
Proof. intros * S E. exact (group_ok _ _ _ _ _ _ _ _ _ _ S res E). Qed.

(** It succeeds also if keys are repeated *)
Theorem C56_group_succeeds : forall same is_nan cast schema_ok outer e to_shape keys_to keys_from values_from,
  group_setting same is_nan cast outer e to_shape keys_to keys_from values_from ->
  (exists res, translate_group same is_nan cast schema_ok to_shape keys_to keys_from (outer ++ [e]) values_from = TGOk res) <->
  is_prefix outer to_shape = true /\ cast keys_to <> None /\ schema_ok = true /\
  (forall k, In (Some k) (k_items keys_from) -> possible_key k).
Proof. intros * S. exact (group_succeeds _ _ _ _ _ _ _ _ _ _ S). Qed.

Theorem C56_group_shapes : forall same is_nan cast schema_ok to_shape keys_to keys_from values_shape values_from,
  k_shape keys_from <> values_shape \/ k_shape keys_from = [] ->
  forall res, translate_group same is_nan cast schema_ok to_shape keys_to keys_from values_shape values_from <> TGOk res.
Proof.
  intros * H res E. unfold translate_group in E. destruct (shape_eqb (k_shape keys_from) values_shape) eqn:X; [| discriminate E].
  apply SliceShapeProofs.shape_eqb_eq in X. destruct H as [H | H]; [contradiction |]. rewrite H in E. discriminate E.
Qed.

(** the example of the documentation, and two rows *)
Definition ex_group_keys : key_slice value :=
  mkKey [[6]] (Single true) (map (fun c => Some (txt c)) [97; 99; 98; 99; 97; 101]%N).
Definition ex_ints (l : list Z) : list ditem := map (fun z => Some (int z)) l.
Example C56_group_hypotheses_met :
  group_setting value_eqb no_nan Some [] [6] [[5]] [Some (txt 97); Some (txt 99); None; Some (txt 100); Some (txt 101)]
    ex_group_keys (ex_ints [1; 2; 3; 4; 5; 6]%Z) /\
  translate_group value_eqb no_nan Some true [[5]] [Some (txt 97); Some (txt 99); None; Some (txt 100); Some (txt 101)]
    ex_group_keys [[6]] (ex_ints [1; 2; 3; 4; 5; 6]%Z) = TGOk [ex_ints [1; 5]%Z; ex_ints [2; 4]%Z; []; []; ex_ints [6]%Z] /\
  translate_group value_eqb no_nan Some true ex_to ex_keys_to (ex_keys 97) [[2]; [2; 2]] (Some (int 1) :: None :: ex_ints [3; 4]%Z)
    = TGOk [[Some (int 1); None]; []; ex_ints [3]%Z; []; []] /\
  translate_group value_eqb no_nan Some true ex_to ex_keys_to (ex_keys 97) [[2]] (ex_ints [1; 2]%Z) = TGShapes.
Proof.
  split.
  - split; [split |].
    + intros a b H. rewrite value_eqb_sym. exact H.
    + intros a b c H1 H2. destruct (value_eqb_spec a b); [| discriminate]. subst. exact H2.
    + split; [discriminate |]. split.
      { intros v w _. destruct (value_eqb_spec v w); split; congruence. }
      split; [split; [reflexivity | reflexivity | discriminate] |].
      split; [cbn; auto |]. split; [cbn; auto |]. split; [reflexivity |]. intros l l' H. inversion H; reflexivity.
  - vm_compute. repeat split; reflexivity.
Qed.

Print Assumptions C56_translate.
Print Assumptions C56_succeeds.
Print Assumptions C56_item.
Print Assumptions C56_one_value.
Print Assumptions C56_own_keys.
Print Assumptions C56_float_keys_refuted.
Print Assumptions C56_translate_group.
Print Assumptions C56_group_succeeds.
Print Assumptions C56_group_shapes.
