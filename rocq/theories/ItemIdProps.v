(** Properties C01-C04: item identifiers.
    Specification vocabulary used below, besides the API functions of
    [ObjectIdModel] / [Base62Model]:
    - [wf o]: [o] is a 128-bit identifier (its fields fit their widths);
    - [is_allocation a]: an identifier of a whole allocation (offset 0);
    - characters are byte codes. *)
From Coq Require Import NArith List Bool.
From Verif Require Import ItemIdSpec Base62Model Base62Proofs ObjectIdModel ObjectIdProofs.
Import ListNotations.
Open Scope N_scope.

(** ** C01 *)

Theorem C01_itemid_text_roundtrip : forall o,
  wf o ->
  length (encode_itemid o) = 22%nat /\
  Forall alphanumeric (encode_itemid o) /\
  decode_itemid (encode_itemid o) = o.
Proof. exact itemid_text. Qed.
Print Assumptions C01_itemid_text_roundtrip.

Theorem C01_itemid_text_injective : forall o o',
  wf o -> wf o' -> encode_itemid o = encode_itemid o' -> o = o'.
Proof. exact itemid_text_inj. Qed.
Print Assumptions C01_itemid_text_injective.

(** The text form is the ordinary base-62 numeral of the 128-bit number
    high * 2^64 + low, and every 22-character alphanumeric numeral below 2^128
    is the text form of exactly the number it denotes. *)
Theorem C01_text_is_positional_numeral : forall v,
  v < 2 ^ 128 -> positional (base62_repr v) = v.
Proof. exact repr_positional. Qed.
Print Assumptions C01_text_is_positional_numeral.

Theorem C01_every_valid_text_is_a_text_form : forall t,
  length t = 22%nat -> Forall alphanumeric t -> positional t < 2 ^ 128 ->
  decode_base62 t = positional t /\ base62_repr (decode_base62 t) = t.
Proof. exact positional_surj. Qed.
Print Assumptions C01_every_valid_text_is_a_text_form.

(** Text outside the alphabet is not rejected: unknown characters read as the
    digit 0, so different texts can decode to the same item (a finding). *)
Theorem C01_decode_rejects_garbage_refuted :
  exists t t', t <> t' /\ decode_itemid t = decode_itemid t' /\ length t = 22%nat.
Proof.
  exists (repeat 33 22), (repeat 48 22).
  split; [discriminate|split; vm_compute; reflexivity].
Qed.
Print Assumptions C01_decode_rejects_garbage_refuted.

Example C01_hypotheses_met :
  let o := mkOid 12345 3 2 99999999999 in
  wf o /\ decode_itemid (encode_itemid o) = o.
Proof. vm_compute. repeat split. Qed.

(** ** C02 *)

Theorem C02_offsets_name_distinct_items : forall a i j,
  is_allocation a -> i < capacity a -> j < capacity a ->
  wf (object_by_offset a i) /\
  offset (object_by_offset a i) = i /\
  allocation_of (object_by_offset a i) = a /\
  (object_by_offset a i = object_by_offset a j -> i = j).
Proof. exact offsets_distinct. Qed.
Print Assumptions C02_offsets_name_distinct_items.

Theorem C02_every_item_is_one_position : forall o,
  wf o -> is_allocation (allocation_of o) /\ offset o < capacity (allocation_of o) /\
          object_by_offset (allocation_of o) (offset o) = o.
Proof. exact item_position. Qed.
Print Assumptions C02_every_item_is_one_position.

Theorem C02_contains_exactly_own_items : forall a o,
  is_allocation a -> wf o ->
  (contains a o = true <-> exists i, i < capacity a /\ o = object_by_offset a i).
Proof. exact contains_exists. Qed.
Print Assumptions C02_contains_exactly_own_items.

Theorem C02_different_allocations_are_disjoint : forall a b o,
  is_allocation a -> is_allocation b -> wf o ->
  contains a o = true -> contains b o = true -> a = b.
Proof. exact allocs_disjoint. Qed.
Print Assumptions C02_different_allocations_are_disjoint.

Theorem C02_equality_is_identity : forall a b, wf a -> wf b -> (oid_eqb a b = true <-> a = b).
Proof. exact oid_eqb_spec. Qed.
Print Assumptions C02_equality_is_identity.

Example C02_hypotheses_met :
  let a := allocation_of (mkOid 77 10 0 (5 * 1024 + 17)) in
  is_allocation a /\ 1000 < capacity a /\ contains a (object_by_offset a 1000) = true /\
  contains a (mkOid 77 10 0 (6 * 1024)) = false.
Proof. vm_compute. repeat split. Qed.

(** ** C03 *)

Theorem C03_nofollow_roundtrip : forall o,
  wf o -> is_schema o = true -> is_nofollow_schema o = false ->
  let n := create_nofollow o in
  wf n /\ is_nofollow_schema n = true /\ is_schema n = true /\ n <> o /\
  is_uuid n = is_uuid o /\ offset n = offset o /\
  get_original_from_nofollow n = o.
Proof. exact nofollow_roundtrip. Qed.
Print Assumptions C03_nofollow_roundtrip.

Theorem C03_nofollow_injective : forall o o',
  wf o -> is_schema o = true -> is_nofollow_schema o = false ->
  wf o' -> is_schema o' = true -> is_nofollow_schema o' = false ->
  create_nofollow o = create_nofollow o' -> o = o'.
Proof. exact nofollow_inj. Qed.
Print Assumptions C03_nofollow_injective.

(** No identifier is of two kinds at once. *)
Theorem C03_kinds_are_exclusive : forall o,
  wf o -> b2n (is_entity o) + b2n (is_list o) + b2n (is_dict o) + b2n (is_schema o) <= 1.
Proof. exact kinds_apart. Qed.
Print Assumptions C03_kinds_are_exclusive.

(** A uuid derived from a main object keeps its offset and the capacity of its
    allocation, is a uuid, and objects of one allocation stay together. *)
Theorem C03_derived_uuid : forall flag m fp,
  wf m -> wf fp -> flag < 64 -> N.odd flag = true ->
  let u := create_uuid_with_main_object flag m fp in
  wf u /\ is_uuid u = true /\ offset u = offset m /\
  capacity (allocation_of u) = capacity (allocation_of m) /\
  (forall m', wf m' -> allocation_of m' = allocation_of m ->
     allocation_of (create_uuid_with_main_object flag m' fp) = allocation_of u).
Proof. exact derived_uuid. Qed.
Print Assumptions C03_derived_uuid.

Example C03_hypotheses_met :
  let s := mkOid 5 4 kUuidExplicitSchemaFlag 1234567 in
  wf s /\ is_schema s = true /\ is_nofollow_schema s = false /\
  is_nofollow_schema (create_nofollow s) = true.
Proof. vm_compute. repeat split. Qed.

(** ** C04 *)

(** Every request (by any thread, of any kind) for at most 2^40 items is
    answered by an allocation of the requested kind with room for all items
    and less than twice that; larger ones are refused; and no identifier
    belongs to two answers, for every sequence of requests. The order of the
    list is the order of the atomic fetch_add instructions; all other state is
    thread local. *)
Theorem C04_fresh_allocations_never_collide : forall epoch rs os s',
  N.of_nat (length rs) < 2 ^ 64 ->
  Forall (fun r => r_size r <= 2 ^ 63) rs ->
  run (init epoch) rs = (os, s') ->
  forall i j a b o, i <> j ->
  nth_error os i = Some (Some a) -> nth_error os j = Some (Some b) ->
  wf o -> contains a o = true -> contains b o = false.
Proof.
  exact (fun epoch rs os s' H1 H2 H3 i j a b o => fresh_disjoint epoch rs os s' i j a b o H1 H2 H3).
Qed.
Print Assumptions C04_fresh_allocations_never_collide.

Theorem C04_answers_fit_the_request : forall epoch rs os s' i r,
  r_size r <= 2 ^ 63 ->
  run (init epoch) rs = (os, s') -> nth_error rs i = Some r ->
  (2 ^ 40 < r_size r /\ nth_error os i = Some None) \/
  (r_size r <= 2 ^ 40 /\ exists a, nth_error os i = Some (Some a) /\
    r_size r <= capacity a /\ (1 <= r_size r -> capacity a < 2 * r_size r) /\
    metadata a = kind_flag (r_kind r)).
Proof. exact run_capacity. Qed.
Print Assumptions C04_answers_fit_the_request.

(** Without the bound on the request size the claim is false: for more than
    2^63 items the 6-bit field truncates 64 to 0 before the size check, the
    check passes and the answer collides with a single object (a finding; not
    reachable with real memory sizes). *)
Theorem C04_unbounded_sizes_refuted :
  exists rs a b o,
    fst (run (init 1) rs) = [Some a; Some b] /\ wf o /\
    contains a o = true /\ contains b o = true.
Proof.
  set (rs := [mkReq 0 KEntity (2 ^ 63 + 1); mkReq 0 KEntity 1]).
  exists rs. exists (mkOid 1 0 0 0), (mkOid 1 0 0 0), (mkOid 1 0 0 0).
  vm_compute. repeat split.
Qed.
Print Assumptions C04_unbounded_sizes_refuted.

Example C04_hypotheses_met :
  let rs := [mkReq 0 KEntity 1; mkReq 1 KList 5; mkReq 0 KDict 5; mkReq 1 KList 8; mkReq 2 KEntity 1;
             mkReq 0 KEntity 1; mkReq 1 KExplicitSchema 1] in
  Forall (fun r => r_size r <= 2 ^ 63) rs /\
  map (option_map (fun a => (offset_bits a, metadata a, id_ a))) (fst (run (init 7) rs)) =
    [Some (0, 0, 0); Some (3, 2, 0); Some (3, 4, 2 ^ 18); Some (3, 2, 8); Some (0, 0, 2 ^ 24);
     Some (0, 0, 1); Some (0, 60, 2 * 2 ^ 24)].
Proof. split; [repeat constructor; vm_compute; discriminate|vm_compute; reflexivity]. Qed.
