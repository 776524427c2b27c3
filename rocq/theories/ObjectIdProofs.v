From Coq Require Import NArith List Bool Lia Permutation.
From Verif Require Import ItemIdSpec Base62Model Base62Proofs ObjectIdModel.
Import ListNotations.
Open Scope N_scope.

(** * Bit arithmetic *)

Lemma pow_pos k : 0 < 2 ^ k.
Proof. apply N.neq_0_lt_0, N.pow_nonzero. discriminate. Qed.
Lemma pow_nz k : 2 ^ k <> 0.
Proof. pose proof (pow_pos k). lia. Qed.

Lemma mask_ones b : N.shiftl 1 b - 1 = N.ones b.
Proof. rewrite N.shiftl_1_l, N.ones_equiv, N.sub_1_r. reflexivity. Qed.

Lemma land_high_zero a b k : a < 2 ^ k -> N.land a (N.shiftl b k) = 0.
Proof.
  intros H. apply N.bits_inj. intros i. rewrite N.land_spec, N.bits_0.
  destruct (N.lt_ge_cases i k) as [Hi|Hi].
  - rewrite N.shiftl_spec_low by auto. apply andb_false_r.
  - destruct (N.eq_dec a 0) as [->|Ha]; [rewrite N.bits_0; reflexivity|].
    rewrite N.bits_above_log2; [reflexivity|].
    apply N.lt_le_trans with k; auto. apply N.log2_lt_pow2; lia.
Qed.

Lemma lor_shiftl_add a b k : a < 2 ^ k -> N.lor a (N.shiftl b k) = a + b * 2 ^ k.
Proof.
  intros H. pose proof (land_high_zero a b k H) as E.
  rewrite <- N.lxor_lor, <- N.add_nocarry_lxor by auto.
  rewrite N.shiftl_mul_pow2. reflexivity.
Qed.

Lemma lor_mul_add a q k : a < 2 ^ k -> N.lor a (q * 2 ^ k) = a + q * 2 ^ k.
Proof. intros. rewrite <- N.shiftl_mul_pow2 at 1. apply lor_shiftl_add; auto. Qed.

Lemma clear_low x b : N.shiftl (N.shiftr x b) b = x / 2 ^ b * 2 ^ b.
Proof. rewrite N.shiftl_mul_pow2, N.shiftr_div_pow2. reflexivity. Qed.

Lemma clear_low_le x b : x / 2 ^ b * 2 ^ b <= x.
Proof. rewrite N.mul_comm. apply N.mul_div_le, pow_nz. Qed.

Lemma shiftr_lxor_zero x y b : N.shiftr (N.lxor x y) b = 0 <-> x / 2 ^ b = y / 2 ^ b.
Proof.
  rewrite N.shiftr_lxor, N.lxor_eq_0_iff, !N.shiftr_div_pow2. reflexivity.
Qed.

(** * The high word *)

Lemma high64_sum o : wf o ->
  internal_high64 o = allocator_id o + (offset_bits o + metadata o * 2 ^ 6) * 2 ^ 52.
Proof.
  intros (Ha & Hb & Hm & Hi). unfold internal_high64.
  replace (N.shiftl (metadata o) 58) with (N.shiftl (N.shiftl (metadata o) 6) 52)
    by (rewrite N.shiftl_shiftl; reflexivity).
  rewrite <- N.shiftl_lor. rewrite lor_shiftl_add by auto.
  rewrite lor_shiftl_add by auto. reflexivity.
Qed.

Lemma high64_lt o : wf o -> internal_high64 o < two64.
Proof.
  intros H. rewrite high64_sum by auto. destruct H as (Ha & Hb & Hm & Hi).
  change two64 with (2 ^ 6 * 2 ^ 6 * 2 ^ 52). nia.
Qed.

Lemma unsafe_create_roundtrip o : wf o ->
  unsafe_create (internal_high64 o) (internal_low64 o) = o.
Proof.
  intros H. pose proof (high64_sum o H) as E. destruct H as (Ha & Hb & Hm & Hi).
  unfold unsafe_create, internal_low64. rewrite !N.land_ones, !N.shiftr_div_pow2, E.
  assert (E1 : (allocator_id o + (offset_bits o + metadata o * 2 ^ 6) * 2 ^ 52) / 2 ^ 52
               = offset_bits o + metadata o * 2 ^ 6).
  { rewrite N.div_add by apply pow_nz. rewrite N.div_small by auto. reflexivity. }
  assert (E2 : (allocator_id o + (offset_bits o + metadata o * 2 ^ 6) * 2 ^ 52) / 2 ^ 58
               = metadata o).
  { change (2 ^ 58) with (2 ^ 52 * 2 ^ 6). rewrite <- N.div_div by apply pow_nz.
    rewrite E1, N.div_add by apply pow_nz. rewrite N.div_small by auto. reflexivity. }
  rewrite E1, E2. rewrite !N.mod_add by apply pow_nz.
  rewrite !N.mod_small by auto. destruct o; reflexivity.
Qed.

Lemma unsafe_create_wf hi lo : wf (unsafe_create hi lo).
Proof.
  unfold wf, unsafe_create; cbn [allocator_id offset_bits metadata id_].
  rewrite !N.land_ones. repeat split; apply N.mod_lt, pow_nz.
Qed.

Lemma high_low_inj a b : wf a -> wf b ->
  internal_high64 a = internal_high64 b -> internal_low64 a = internal_low64 b -> a = b.
Proof.
  intros Ha Hb E1 E2. rewrite <- (unsafe_create_roundtrip a), <- (unsafe_create_roundtrip b) by auto.
  rewrite E1, E2. reflexivity.
Qed.

Lemma high_eq_fields a b : wf a -> wf b ->
  internal_high64 a = internal_high64 b ->
  allocator_id a = allocator_id b /\ offset_bits a = offset_bits b /\ metadata a = metadata b.
Proof.
  intros Ha Hb E.
  pose proof (unsafe_create_roundtrip a Ha) as Ra. pose proof (unsafe_create_roundtrip b Hb) as Rb.
  rewrite E in Ra. unfold unsafe_create in Ra, Rb. repeat split.
  - apply (f_equal allocator_id) in Ra, Rb. cbn [allocator_id] in Ra, Rb. congruence.
  - apply (f_equal offset_bits) in Ra, Rb. cbn [offset_bits] in Ra, Rb. congruence.
  - apply (f_equal metadata) in Ra, Rb. cbn [metadata] in Ra, Rb. congruence.
Qed.

Lemma oid_eqb_spec a b : wf a -> wf b -> (oid_eqb a b = true <-> a = b).
Proof.
  intros Ha Hb. unfold oid_eqb. rewrite andb_true_iff, !N.eqb_eq. split.
  - intros [E1 E2]. apply high_low_inj; auto.
  - intros ->; auto.
Qed.

Lemma raw_lt o : wf o -> to_raw_int128 o < two128.
Proof.
  intros H. unfold to_raw_int128. pose proof (high64_lt o H).
  destruct H as (_ & _ & _ & Hi). unfold internal_low64.
  change two128 with (two64 * two64). change (2 ^ 64) with two64 in Hi. nia.
Qed.

Lemma raw_div o : wf o -> to_raw_int128 o / two64 = internal_high64 o /\
                          to_raw_int128 o mod two64 = internal_low64 o.
Proof.
  intros H. unfold to_raw_int128. assert (Hl : internal_low64 o < two64) by apply H.
  assert (two64 <> 0) by (vm_compute; discriminate).
  rewrite N.add_comm, N.div_add, N.mod_add by auto.
  rewrite N.div_small, N.mod_small by auto. auto.
Qed.

Lemma itemid_roundtrip o : wf o -> decode_itemid (encode_itemid o) = o.
Proof.
  intros H. unfold decode_itemid, encode_itemid.
  rewrite base62_roundtrip by (apply raw_lt; auto). cbv zeta.
  destruct (raw_div o H) as [-> ->]. apply unsafe_create_roundtrip; auto.
Qed.

(** * Allocations and offsets *)

(** An allocation id: a well-formed id whose offset bits are 0. *)
Definition is_allocation (a : ObjectId) : Prop := wf a /\ offset a = 0.

Lemma offset_mod o : offset o = id_ o mod 2 ^ offset_bits o.
Proof. unfold offset. rewrite mask_ones, N.land_ones. reflexivity. Qed.

Lemma capacity_pow a : capacity a = 2 ^ offset_bits a.
Proof. apply N.shiftl_1_l. Qed.

Lemma allocation_of_id o : wf o ->
  id_ (allocation_of o) = id_ o / 2 ^ offset_bits o * 2 ^ offset_bits o.
Proof.
  intros (_ & _ & _ & Hi). unfold allocation_of; cbn [id_].
  rewrite clear_low, N.land_ones. apply N.mod_small.
  eapply N.le_lt_trans; [apply clear_low_le|exact Hi].
Qed.

Lemma allocation_of_is_allocation o : wf o -> is_allocation (allocation_of o).
Proof.
  intros H. split.
  - destruct H as (Ha & Hb & Hm & Hi). repeat split; auto.
    rewrite allocation_of_id by (repeat split; auto).
    eapply N.le_lt_trans; [apply clear_low_le|exact Hi].
  - rewrite offset_mod, allocation_of_id by auto. cbn [offset_bits allocation_of].
    apply N.mod_mul, pow_nz.
Qed.

Lemma object_by_offset_id a off : is_allocation a -> off < capacity a ->
  id_ (object_by_offset a off) = id_ a + off.
Proof.
  intros [Hw H0] Ho. rewrite capacity_pow in Ho. rewrite offset_mod in H0.
  cbn [object_by_offset id_].
  pose proof (N.div_mod (id_ a) (2 ^ offset_bits a) (pow_nz _)) as E.
  rewrite H0, N.add_0_r, N.mul_comm in E.
  rewrite E. rewrite N.lor_comm, lor_mul_add by auto. lia.
Qed.

Lemma alloc_id_mul a : is_allocation a ->
  id_ a = id_ a / 2 ^ offset_bits a * 2 ^ offset_bits a.
Proof.
  intros [Hw H0]. rewrite offset_mod in H0.
  pose proof (N.div_mod (id_ a) (2 ^ offset_bits a) (pow_nz _)). lia.
Qed.

Lemma object_by_offset_wf a off : is_allocation a -> off < capacity a ->
  wf (object_by_offset a off).
Proof.
  intros Ha Ho. pose proof (object_by_offset_id a off Ha Ho) as E.
  pose proof (alloc_id_mul a Ha) as Em. rewrite capacity_pow in Ho.
  destruct Ha as [(H1 & H2 & H3 & H4) H0]. repeat split; auto.
  rewrite E.
  assert (Hle : 2 ^ 64 = 2 ^ (64 - offset_bits a) * 2 ^ offset_bits a).
  { rewrite <- N.pow_add_r. f_equal. change (2 ^ 6) with 64 in H2. lia. }
  rewrite Hle in *. set (p := 2 ^ offset_bits a) in *.
  set (q := id_ a / p) in *. assert (q < 2 ^ (64 - offset_bits a)) by nia. nia.
Qed.

Lemma object_by_offset_offset a off : is_allocation a -> off < capacity a ->
  offset (object_by_offset a off) = off.
Proof.
  intros Ha Ho. rewrite offset_mod, object_by_offset_id by auto.
  cbn [object_by_offset offset_bits]. rewrite (alloc_id_mul a Ha).
  rewrite N.add_comm, N.mod_add by apply pow_nz.
  apply N.mod_small. rewrite <- capacity_pow. auto.
Qed.

Lemma object_by_offset_alloc a off : is_allocation a -> off < capacity a ->
  allocation_of (object_by_offset a off) = a.
Proof.
  intros Ha Ho. pose proof (object_by_offset_wf a off Ha Ho) as Hw.
  pose proof (allocation_of_id _ Hw) as E.
  pose proof (object_by_offset_id a off Ha Ho) as E2.
  assert (id_ (allocation_of (object_by_offset a off)) = id_ a).
  { rewrite E, E2. cbn [object_by_offset offset_bits].
    rewrite (alloc_id_mul a Ha) at 1. rewrite N.add_comm, N.div_add by apply pow_nz.
    rewrite (N.div_small off) by (rewrite <- capacity_pow; auto).
    rewrite N.add_0_l. symmetry. apply alloc_id_mul; auto. }
  destruct a; cbn in *. unfold allocation_of in *. cbn in *. congruence.
Qed.

Lemma offset_lt o : offset o < capacity o.
Proof. rewrite offset_mod, capacity_pow. apply N.mod_lt, pow_nz. Qed.

Lemma object_reassemble o : wf o -> object_by_offset (allocation_of o) (offset o) = o.
Proof.
  intros H. pose proof (allocation_of_is_allocation o H) as Ha.
  pose proof (object_by_offset_id (allocation_of o) (offset o) Ha) as E.
  assert (Hc : offset o < capacity (allocation_of o))
    by (change (capacity (allocation_of o)) with (capacity o); apply offset_lt).
  specialize (E Hc). rewrite allocation_of_id, (offset_mod o) in E by auto.
  pose proof (N.div_mod (id_ o) (2 ^ offset_bits o) (pow_nz _)) as Ed.
  assert (Ei : id_ (object_by_offset (allocation_of o) (offset o)) = id_ o)
    by (rewrite (offset_mod o); lia).
  destruct o as [al ob md id]. unfold object_by_offset, allocation_of in *.
  cbn [id_ allocator_id offset_bits metadata] in *. congruence.
Qed.

Lemma contains_spec a o : is_allocation a -> wf o ->
  (contains a o = true <-> allocation_of o = a).
Proof.
  intros Ha Ho. destruct Ha as [Hw H0]. unfold contains, internal_low64.
  rewrite andb_true_iff, !N.eqb_eq, shiftr_lxor_zero. split.
  - intros [E1 E2]. destruct (high_eq_fields a o Hw Ho E1) as (F1 & F2 & F3).
    pose proof (allocation_of_id o Ho) as E3.
    assert (id_ (allocation_of o) = id_ a).
    { rewrite E3, <- F2, E2. symmetry. apply alloc_id_mul. split; auto. }
    destruct a, o; unfold allocation_of in *; cbn in *. congruence.
  - intros <-. split.
    + unfold internal_high64, allocation_of; cbn. reflexivity.
    + rewrite allocation_of_id by auto. cbn [allocation_of offset_bits].
      rewrite N.div_mul by apply pow_nz. reflexivity.
Qed.

Lemma contains_exists a o : is_allocation a -> wf o ->
  (contains a o = true <-> exists off, off < capacity a /\ o = object_by_offset a off).
Proof.
  intros Ha Ho. rewrite contains_spec by auto. split.
  - intros <-. exists (offset o). split; [change (capacity (allocation_of o)) with (capacity o); apply offset_lt|]. symmetry. apply object_reassemble; auto.
  - intros (off & Hc & ->). apply object_by_offset_alloc; auto.
Qed.

(** * Uuids derived from a main object *)

Lemma uuid_main_id flag m fp : wf m -> wf fp ->
  let r := create_uuid_with_main_object flag m fp in
  id_ r = id_ fp / 2 ^ offset_bits m * 2 ^ offset_bits m + id_ m mod 2 ^ offset_bits m.
Proof.
  intros Hm Hf. cbn zeta. unfold create_uuid_with_main_object. cbn [id_].
  rewrite mask_ones. set (b := offset_bits m).
  pose proof (N.mod_lt (id_ m) (2 ^ b) (pow_nz b)) as Hlt.
  rewrite (N.add_comm (_ * _)), <- (lor_mul_add (id_ m mod 2 ^ b) _ b Hlt).
  rewrite <- (N.land_ones (id_ m)).
  rewrite <- N.shiftl_mul_pow2, <- N.shiftr_div_pow2.
  apply N.bits_inj. intros i.
  rewrite N.lxor_spec, N.land_spec, N.lxor_spec, N.lor_spec, N.land_spec.
  destruct (N.lt_ge_cases i b) as [Hi|Hi].
  - rewrite N.ones_spec_low, N.shiftl_spec_low by auto.
    destruct (N.testbit (id_ m) i), (N.testbit (id_ fp) i); reflexivity.
  - rewrite N.ones_spec_high, N.shiftl_spec_high, N.shiftr_spec by lia.
    replace (i - b + b) with i by lia.
    rewrite !andb_false_r, xorb_false_r. reflexivity.
Qed.

Lemma uuid_main_offset flag m fp : wf m -> wf fp ->
  offset (create_uuid_with_main_object flag m fp) = offset m.
Proof.
  intros Hm Hf. rewrite !offset_mod, uuid_main_id by auto.
  cbn [create_uuid_with_main_object offset_bits].
  rewrite N.add_comm, N.mod_add by apply pow_nz.
  apply N.mod_small, N.mod_lt, pow_nz.
Qed.

Lemma uuid_main_wf flag m fp : wf m -> wf fp -> flag < 2 ^ 6 ->
  wf (create_uuid_with_main_object flag m fp).
Proof.
  intros Hm Hf Hfl. pose proof (uuid_main_id flag m fp Hm Hf) as E. cbn zeta in E.
  destruct Hm as (M1 & M2 & M3 & M4), Hf as (F1 & F2 & F3 & F4).
  repeat split; auto. rewrite E.
  assert (Hle : 2 ^ 64 = 2 ^ (64 - offset_bits m) * 2 ^ offset_bits m).
  { rewrite <- N.pow_add_r. f_equal. change (2 ^ 6) with 64 in M2. lia. }
  pose proof (N.mod_lt (id_ m) (2 ^ offset_bits m) (pow_nz _)) as Hlt.
  pose proof (clear_low_le (id_ fp) (offset_bits m)) as Hc.
  rewrite Hle in *. set (p := 2 ^ offset_bits m) in *.
  set (q := id_ fp / p) in *. assert (q < 2 ^ (64 - offset_bits m)) by nia. nia.
Qed.

Lemma uuid_main_alloc flag m m' fp : wf m -> wf m' -> wf fp ->
  allocation_of m = allocation_of m' ->
  allocation_of (create_uuid_with_main_object flag m fp)
  = allocation_of (create_uuid_with_main_object flag m' fp).
Proof.
  intros Hm Hm' Hf E.
  assert (Eb : offset_bits m = offset_bits m') by (apply (f_equal offset_bits) in E; exact E).
  pose proof (uuid_main_id flag m fp Hm Hf) as E1. pose proof (uuid_main_id flag m' fp Hm' Hf) as E2.
  cbn zeta in E1, E2.
  unfold allocation_of. rewrite E1, E2. cbn [create_uuid_with_main_object offset_bits allocator_id metadata].
  rewrite <- Eb. f_equal. f_equal. f_equal.
  rewrite !N.shiftr_div_pow2.
  rewrite (N.add_comm (_ * _)), N.div_add by apply pow_nz.
  rewrite (N.add_comm (_ * _)), N.div_add by apply pow_nz.
  rewrite !(N.div_small (_ mod _)) by (apply N.mod_lt, pow_nz). reflexivity.
Qed.

(** * Schema flags: a finite question, decided by computation *)

Definition all64 : list N := map N.of_nat (seq 0 64).
Lemma all64_in m : m < 2 ^ 6 -> In m all64.
Proof.
  intros H. unfold all64. apply in_map_iff. exists (N.to_nat m).
  rewrite N2Nat.id. split; auto. apply in_seq. change (2 ^ 6) with 64 in H. lia.
Qed.

Lemma flags_nofollow m : m < 2 ^ 6 ->
  kStartSchemaFlag <= m ->
  N.land m kNoFollowSchemaFlag <> kNoFollowSchemaFlag ->
  let m' := N.lor m kNoFollowSchemaFlag in
  m' < 2 ^ 6 /\ N.land m' kNoFollowSchemaFlag = kNoFollowSchemaFlag /\
  m <> m' /\
  N.ldiff m' (N.ldiff kNoFollowSchemaFlag kStartSchemaFlag) = m /\
  N.land m' kUuidFlag = N.land m kUuidFlag /\ kStartSchemaFlag <= m'.
Proof.
  intros H. pose proof (all64_in m H) as Hin. clear H. cbn zeta.
  assert (A : forallb (fun m =>
    implb (kStartSchemaFlag <=? m) (implb (negb (N.land m kNoFollowSchemaFlag =? kNoFollowSchemaFlag))
      ((N.lor m kNoFollowSchemaFlag <? 2 ^ 6) &&
       (N.land (N.lor m kNoFollowSchemaFlag) kNoFollowSchemaFlag =? kNoFollowSchemaFlag) &&
       negb (m =? N.lor m kNoFollowSchemaFlag) &&
       (N.ldiff (N.lor m kNoFollowSchemaFlag) (N.ldiff kNoFollowSchemaFlag kStartSchemaFlag) =? m) &&
       (N.land (N.lor m kNoFollowSchemaFlag) kUuidFlag =? N.land m kUuidFlag) &&
       (kStartSchemaFlag <=? N.lor m kNoFollowSchemaFlag)))) all64 = true)
    by (vm_compute; reflexivity).
  rewrite forallb_forall in A. specialize (A m Hin).
  intros H1 H2. apply N.leb_le in H1. apply N.eqb_neq in H2. rewrite H1, H2 in A. cbn [implb negb] in A.
  rewrite !andb_true_iff, negb_true_iff in A.
  destruct A as [[[[[A1 A2] A3] A4] A5] A6].
  apply N.ltb_lt in A1. apply N.eqb_eq in A2. apply N.eqb_neq in A3.
  apply N.eqb_eq in A4. apply N.eqb_eq in A5. apply N.leb_le in A6. auto 10.
Qed.

Lemma kinds_exclusive m : m < 2 ^ 6 -> forall a i,
  let o := mkOid a i m 0 in
  (if is_entity o then 1 else 0) + (if is_list o then 1 else 0) +
  (if is_dict o then 1 else 0) + (if is_schema o then 1 else 0) <= 1.
Proof.
  intros H a i. pose proof (all64_in m H) as Hin. cbn zeta.
  unfold is_entity, is_list, is_dict, is_schema. cbn [metadata].
  assert (A : forallb (fun m =>
     (if clear_uuid m =? 0 then 1 else 0) + (if clear_uuid m =? kListFlag then 1 else 0) +
     (if clear_uuid m =? kDictFlag then 1 else 0) + (if kStartSchemaFlag <=? m then 1 else 0) <=? 1) all64 = true)
    by (vm_compute; reflexivity).
  rewrite forallb_forall in A. apply N.leb_le, (A m Hin).
Qed.

(** * Fresh allocation *)

(** slots that can be used by requests of at most 2^63 items *)
Definition okslot (sl : N) : Prop := (1 <= sl /\ sl <= 40) \/ sl = kSingleSlot.
(** offset bits, local counter bits and total id bits of a slot *)
Definition obits (sl : N) : N := if sl =? kSingleSlot then 0 else sl.
Definition lbits (sl : N) : N := if sl =? kSingleSlot then kIdBitCount else local_allocation_bit_count sl.
Definition kbits (sl : N) : N := lbits sl + obits sl.

Lemma okslot_obits sl : okslot sl -> obits sl <= 40.
Proof. unfold obits. destruct (N.eqb_spec sl kSingleSlot); intros [[? ?]|?]; try lia. Qed.
Lemma okslot_single : okslot kSingleSlot.
Proof. right; reflexivity. Qed.
Lemma obits_inj sl sl' : okslot sl -> okslot sl' -> obits sl = obits sl' -> sl = sl'.
Proof.
  unfold obits, okslot, kSingleSlot.
  destruct (N.eqb_spec sl 64), (N.eqb_spec sl' 64); lia.
Qed.
Lemma kbits_le sl : okslot sl -> kbits sl <= 46.
Proof.
  intros H. unfold kbits, lbits, obits, local_allocation_bit_count.
  destruct (N.eqb_spec sl kSingleSlot); [subst; vm_compute; discriminate|].
  destruct H as [[H1 H2]|H]; [|contradiction].
  pose proof (N.div_mod (64 - sl) 4 ltac:(discriminate)).
  pose proof (N.mod_lt (64 - sl) 4 ltac:(discriminate)).
  set (q := (64 - sl) / 4) in *. set (r := (64 - sl) mod 4) in *. clearbody q r. lia.
Qed.
Lemma lbits_gt sl : okslot sl -> 1 < 2 ^ lbits sl.
Proof.
  intros H. apply N.pow_gt_1; [lia|]. unfold lbits, local_allocation_bit_count.
  destruct (N.eqb_spec sl kSingleSlot); [discriminate|].
  destruct H as [[H1 H2]|H]; [|contradiction].
  intro Hz. apply N.div_small_iff in Hz; lia.
Qed.

Definition full (sl c n : N) : N := c * 2 ^ kbits sl + n * 2 ^ obits sl.

(** The object produced for slot [sl], counter value [c], local number [n]. *)
Definition enc (pr sl c n : N) (a : ObjectId) : Prop :=
  offset_bits a = obits sl /\
  allocator_id a = (pr + full sl c n / two64) mod 2 ^ 52 /\
  id_ a = full sl c n mod two64.

Lemma full_lt_local sl c n : n < 2 ^ lbits sl -> full sl c n < (c + 1) * 2 ^ kbits sl.
Proof.
  intros H. unfold full, kbits. rewrite N.pow_add_r.
  set (A := 2 ^ lbits sl) in *. pose proof (pow_pos (obits sl)). set (B := 2 ^ obits sl) in *. nia.
Qed.

Lemma full_inj sl c n c' n' :
  n < 2 ^ lbits sl -> n' < 2 ^ lbits sl -> full sl c n = full sl c' n' -> c = c' /\ n = n'.
Proof.
  intros H H' E. pose proof (full_lt_local sl c n H) as L1. pose proof (full_lt_local sl c' n' H') as L2.
  unfold full in *. pose proof (pow_pos (kbits sl)) as PK. pose proof (pow_pos (obits sl)) as PB.
  set (K := 2 ^ kbits sl) in *. set (B := 2 ^ obits sl) in *.
  assert (c = c') by nia. subst c'. split; auto. nia.
Qed.

Lemma thread_id_fst sl c n : okslot sl -> c < two64 -> n < 2 ^ lbits sl ->
  full sl c n / two64 = N.shiftr c (64 - kbits sl).
Proof.
  intros Ho Hc Hn. pose proof (kbits_le sl Ho) as Hk.
  rewrite N.shiftr_div_pow2.
  assert (E : two64 = 2 ^ (64 - kbits sl) * 2 ^ kbits sl).
  { rewrite <- N.pow_add_r. unfold two64. f_equal. lia. }
  pose proof (full_lt_local sl c n Hn) as Hlt. unfold full in *.
  rewrite E. rewrite (N.mul_comm (2 ^ (64 - _))). rewrite <- N.div_div by apply pow_nz. f_equal.
  rewrite N.add_comm, N.div_add by apply pow_nz.
  rewrite N.div_small by lia. apply N.add_0_l.
Qed.

Lemma thread_id_snd sl c n : okslot sl -> c < two64 -> n < 2 ^ lbits sl ->
  full sl c n mod two64 =
  N.lor (N.land (N.shiftl n (obits sl)) (N.ones 64)) (N.land (N.shiftl c (kbits sl)) (N.ones 64)).
Proof.
  intros Ho Hc Hn. pose proof (kbits_le sl Ho) as Hk.
  assert (E : two64 = 2 ^ (64 - kbits sl) * 2 ^ kbits sl).
  { rewrite <- N.pow_add_r. unfold two64. f_equal. lia. }
  rewrite !N.land_ones, !N.shiftl_mul_pow2. change (2 ^ 64) with two64.
  assert (Hsmall : n * 2 ^ obits sl < 2 ^ kbits sl).
  { unfold kbits. rewrite N.pow_add_r. pose proof (pow_pos (obits sl)). nia. }
  rewrite (N.mod_small (n * 2 ^ obits sl)).
  2:{ eapply N.lt_le_trans; [exact Hsmall|]. unfold two64. apply N.pow_le_mono_r; [discriminate|lia]. }
  rewrite E, N.mul_mod_distr_r by apply pow_nz.
  rewrite lor_mul_add by auto.
  unfold full. pose proof (pow_pos (kbits sl)) as PK. pose proof (pow_pos (64 - kbits sl)) as PD.
  set (K := 2 ^ kbits sl) in *. set (D := 2 ^ (64 - kbits sl)) in *.
  pose proof (N.div_mod c D ltac:(lia)) as Ed. pose proof (N.mod_lt c D ltac:(lia)) as Hm.
  set (q := c / D) in *. set (r := c mod D) in *.
  replace (c * K + n * 2 ^ obits sl) with (n * 2 ^ obits sl + r * K + q * (D * K)) by (rewrite Ed; ring).
  rewrite N.mod_add by lia. apply N.mod_small. nia.
Qed.

(** Invariant. [iss] lists the (slot, counter value, local number) triples
    already handed out. *)
Definition active (sl : N) (l : tls) : Prop := sl = kSingleSlot \/ next_local l <> 0.

Record Inv (s : astate) (bound : N) (iss : list (N * N * N)) : Prop := {
  inv_cnt : forall sl, counters s sl <= bound;
  inv_iss : forall sl c n, In (sl, c, n) iss ->
    okslot sl /\ c < counters s sl /\ n < 2 ^ lbits sl;
  inv_loc : forall t sl l, locals s t sl = Some l -> active sl l ->
    okslot sl /\
    exists c, thread_id l = compute_thread_id (kbits sl) c /\ c < counters s sl /\
      next_local l < 2 ^ lbits sl /\
      (forall n, In (sl, c, n) iss -> n < next_local l) /\
      (forall t' l', locals s t' sl = Some l' -> active sl l' -> t' <> t ->
         thread_id l' <> compute_thread_id (kbits sl) c);
  inv_nd : NoDup iss
}.

Lemma compute_inj sl c c' : okslot sl -> c < two64 -> c' < two64 ->
  compute_thread_id (kbits sl) c = compute_thread_id (kbits sl) c' -> c = c'.
Proof.
  intros Ho Hc Hc' E. unfold compute_thread_id in E.
  assert (E1 := f_equal fst E). assert (E2 := f_equal snd E). cbn [fst snd] in E1, E2. clear E.
  assert (H0 : 0 < 2 ^ lbits sl) by apply pow_pos.
  pose proof (thread_id_fst sl c 0 Ho Hc H0) as F1. pose proof (thread_id_fst sl c' 0 Ho Hc' H0) as F2.
  pose proof (thread_id_snd sl c 0 Ho Hc H0) as S1. pose proof (thread_id_snd sl c' 0 Ho Hc' H0) as S2.
  rewrite E1, <- F2 in F1. rewrite E2, <- S2 in S1.
  assert (two64 <> 0) by (vm_compute; discriminate).
  assert (Ef : full sl c 0 = full sl c' 0).
  { rewrite (N.div_mod (full sl c 0) two64), (N.div_mod (full sl c' 0) two64) by auto. congruence. }
  destruct (full_inj sl c 0 c' 0 H0 H0 Ef); auto.
Qed.

Lemma inv_weaken s b b' iss : Inv s b iss -> b <= b' -> Inv s b' iss.
Proof.
  intros [A B C D] Hb. constructor; auto. intros sl. pose proof (A sl). lia.
Qed.

Lemma init_inv e : Inv (init e) 0 [].
Proof.
  constructor; cbn.
  - intros; lia.
  - intros ? ? ? [].
  - discriminate.
  - constructor.
Qed.

Lemma upd_same {A} f k (v : A) : upd f k v k = v.
Proof. unfold upd. rewrite N.eqb_refl. reflexivity. Qed.
Lemma upd_other {A} f k (v : A) i : i <> k -> upd f k v i = f i.
Proof. unfold upd. intros H. apply N.eqb_neq in H. rewrite H. reflexivity. Qed.
Lemma upd2_same {A} f t k (v : A) : upd2 f t k v t k = v.
Proof. unfold upd2. rewrite N.eqb_refl. apply upd_same. Qed.
Lemma upd2_other {A} f t k (v : A) t' k' : t' <> t \/ k' <> k -> upd2 f t k v t' k' = f t' k'.
Proof.
  unfold upd2. intros [H|H].
  - apply N.eqb_neq in H. rewrite H. reflexivity.
  - destruct (t' =? t); auto. apply upd_other; auto.
Qed.

(** Taking a fresh counter value for thread [t] in slot [sl]; [n = 1] if local
    number 0 is handed out at once, [n = 0] if nothing is. *)
Lemma inv_fresh s b iss t sl n new :
  Inv s b iss -> b + 1 < two64 -> okslot sl -> n <= 1 -> 
  new = (if n =? 0 then [] else [(sl, counters s sl, 0)]) ->
  Inv (mkA (proc s) (upd (counters s) sl ((counters s sl + 1) mod two64))
        (upd2 (locals s) t sl (Some (mkTls (compute_thread_id (kbits sl) (counters s sl)) n))))
      (b + 1) (new ++ iss).
Proof.
  intros HI Hb Ho Hn Hnew. pose proof (inv_cnt _ _ _ HI sl) as Hc.
  assert (Hmod : (counters s sl + 1) mod two64 = counters s sl + 1) by (apply N.mod_small; lia).
  rewrite Hmod. pose proof (lbits_gt sl Ho) as Hl1.
  constructor; cbn [counters locals].
  - intros sl'. destruct (N.eq_dec sl' sl) as [->|Hne].
    + rewrite upd_same. lia.
    + rewrite upd_other by auto. pose proof (inv_cnt _ _ _ HI sl'). lia.
  - intros sl' c' n' Hin. apply in_app_iff in Hin. destruct Hin as [Hin|Hin].
    + subst new. destruct (n =? 0); [destruct Hin|]. destruct Hin as [E|[]].
      injection E as <- <- <-. rewrite upd_same. repeat split; auto; lia.
    + destruct (inv_iss _ _ _ HI _ _ _ Hin) as (H1 & H2 & H3). split; [auto|]. split; auto.
      destruct (N.eq_dec sl' sl) as [->|Hne].
      * rewrite upd_same. lia.
      * rewrite upd_other by auto. auto.
  - intros t' sl' l' Hl Hact.
    destruct (N.eq_dec sl' sl) as [->|Hne].
    + destruct (N.eq_dec t' t) as [->|Ht].
      * rewrite upd2_same in Hl. injection Hl as <-. split; auto.
        exists (counters s sl). cbn [thread_id next_local]. rewrite upd_same.
        split; [reflexivity|]. split; [lia|]. split; [lia|]. split.
        -- intros n' Hin. apply in_app_iff in Hin. destruct Hin as [Hin|Hin].
           ++ subst new. destruct (N.eqb_spec n 0); [destruct Hin|].
              destruct Hin as [E|[]]. injection E as <-. lia.
           ++ apply (inv_iss _ _ _ HI) in Hin. lia.
        -- intros t'' l'' Hl'' Hact'' Hne''. rewrite upd2_other in Hl'' by auto.
           destruct (inv_loc _ _ _ HI _ _ _ Hl'' Hact'') as (_ & c & Ec & Hlt & _).
           rewrite Ec. intro Hbad. apply compute_inj in Hbad; auto; lia.
      * rewrite upd2_other in Hl by auto.
        destruct (inv_loc _ _ _ HI _ _ _ Hl Hact) as (H40 & c & Ec & Hlt & Hn' & Hi & Hd).
        split; auto. exists c. rewrite upd_same. split; auto. split; [lia|]. split; auto. split.
        -- intros n' Hin. apply in_app_iff in Hin. destruct Hin as [Hin|Hin]; auto.
           subst new. destruct (n =? 0); [destruct Hin|].
           destruct Hin as [E|[]]. injection E as E1 E2. lia.
        -- intros t'' l'' Hl'' Hact'' Hne''.
           destruct (N.eq_dec t'' t) as [->|Ht''].
           ++ rewrite upd2_same in Hl''. injection Hl'' as <-. cbn [thread_id].
              intro Hbad. apply compute_inj in Hbad; auto; lia.
           ++ rewrite upd2_other in Hl'' by auto. eapply Hd; eauto.
    + rewrite upd2_other in Hl by auto.
      destruct (inv_loc _ _ _ HI _ _ _ Hl Hact) as (H40 & c & Ec & Hlt & Hn' & Hi & Hd).
      split; auto. exists c. rewrite upd_other by auto. repeat split; auto.
      * intros n' Hin. apply in_app_iff in Hin. destruct Hin as [Hin|Hin]; auto.
        subst new. destruct (n =? 0); [destruct Hin|].
        destruct Hin as [E|[]]. injection E as E1 E2. congruence.
      * intros t'' l'' Hl'' Hact'' Hne''. rewrite upd2_other in Hl'' by auto. eapply Hd; eauto.
  - subst new. destruct (n =? 0); cbn; [apply HI|].
    constructor; [|apply HI]. intro Hin. apply (inv_iss _ _ _ HI) in Hin. lia.
Qed.

(** Handing out the next local number of thread [t]. *)
Lemma inv_next s b iss t sl l c n' :
  Inv s b iss -> locals s t sl = Some l -> active sl l ->
  thread_id l = compute_thread_id (kbits sl) c -> c < counters s sl -> b < two64 ->
  (n' = next_local l + 1 /\ n' < 2 ^ lbits sl \/ n' = 0 /\ sl <> kSingleSlot) ->
  Inv (mkA (proc s) (counters s) (upd2 (locals s) t sl (Some (mkTls (thread_id l) n'))))
      b ((sl, c, next_local l) :: iss).
Proof.
  intros HI Hl Hact Ec Hc Hb Hn'.
  destruct (inv_loc _ _ _ HI _ _ _ Hl Hact) as (H40 & c0 & Ec0 & Hlt & Hnl & Hi & Hd).
  assert (c0 = c).
  { rewrite Ec in Ec0. symmetry. pose proof (inv_cnt _ _ _ HI sl). eapply compute_inj; eauto; lia. }
  subst c0. constructor; cbn [counters locals].
  - apply HI.
  - intros sl' c' m [E|Hin]; [injection E as <- <- <-; auto|apply (inv_iss _ _ _ HI); auto].
  - intros t' sl' l' Hl' Hact'.
    destruct (N.eq_dec sl' sl) as [->|Hne]; [destruct (N.eq_dec t' t) as [->|Ht]|].
    + rewrite upd2_same in Hl'. injection Hl' as <-. split; auto.
      exists c. cbn [thread_id next_local]. split; auto. split; auto.
      destruct Hn' as [[-> Hlt2]|[-> Hsl]].
      2:{ destruct Hact' as [Hz|Hz]; [contradiction|]. cbn in Hz. congruence. }
      split; auto. split.
      * intros m [E|Hin]; [injection E as <-; lia|]. apply Hi in Hin. lia.
      * intros t'' l'' Hl'' Hact'' Hne''. rewrite upd2_other in Hl'' by auto. eapply Hd; eauto.
    + rewrite upd2_other in Hl' by auto.
      destruct (inv_loc _ _ _ HI _ _ _ Hl' Hact') as (_ & c' & Ec' & Hlt' & Hnl' & Hi' & Hd').
      split; auto. exists c'. split; auto. split; auto. split; auto. split.
      * intros m [E|Hin]; auto. injection E as E1 E2. exfalso.
        apply (Hd t' l'); auto. rewrite Ec', E1. reflexivity.
      * intros t'' l'' Hl'' Hact'' Hne''.
        destruct (N.eq_dec t'' t) as [->|Ht''].
        -- rewrite upd2_same in Hl''. injection Hl'' as <-. cbn [thread_id].
           eapply (Hd' t l); eauto.
        -- rewrite upd2_other in Hl'' by auto. eapply Hd'; eauto.
    + rewrite upd2_other in Hl' by auto.
      destruct (inv_loc _ _ _ HI _ _ _ Hl' Hact') as (H40' & c' & Ec' & Hlt' & Hnl' & Hi' & Hd').
      split; auto. exists c'. repeat split; auto.
      * intros m [E|Hin]; auto. injection E as E1 E2. congruence.
      * intros t'' l'' Hl'' Hact'' Hne''. rewrite upd2_other in Hl'' by auto. eapply Hd'; eauto.
  - constructor; [|apply HI]. intro Hin. apply Hi in Hin. lia.
Qed.

(** The invariant only reads the functions pointwise. *)
Lemma inv_ext s s' b iss :
  (forall sl, counters s sl = counters s' sl) ->
  (forall t sl, locals s t sl = locals s' t sl) -> Inv s b iss -> Inv s' b iss.
Proof.
  intros Ec El [A B C D]. constructor; auto.
  - intros sl. rewrite <- Ec. auto.
  - intros sl c n Hin. rewrite <- Ec. auto.
  - intros t sl l Hl Ha. rewrite <- El in Hl.
    destruct (C t sl l Hl Ha) as (H40 & c & E1 & E2 & E3 & E4 & E5).
    split; auto. exists c. rewrite <- Ec. repeat split; auto.
    intros t' l' Hl'. rewrite <- El in Hl'. eauto.
Qed.

Lemma allocate_single_inv s t b iss o s' :
  Inv s b iss -> b + 1 < two64 -> allocate_single s t = (o, s') ->
  exists c n, Inv s' (b + 1) ((kSingleSlot, c, n) :: iss) /\ enc (proc s) kSingleSlot c n o /\
    metadata o = 0 /\ n < 2 ^ lbits kSingleSlot /\ c < two64 /\ proc s' = proc s.
Proof.
  intros HI Hb. unfold allocate_single. pose proof okslot_single as Hok.
  assert (Hk0 : kIdBitCount = kbits kSingleSlot) by reflexivity.
  assert (Hpow : N.shiftl 1 kIdBitCount = 2 ^ lbits kSingleSlot) by reflexivity.
  pose proof (inv_cnt _ _ _ HI kSingleSlot) as Hcb.
  destruct (locals s t kSingleSlot) as [l|] eqn:El.
  - destruct (inv_loc _ _ _ HI _ _ _ El (or_introl eq_refl)) as (H40 & c & Ec & Hc & Hn & Hi & Hd).
    assert (Henc : enc (proc s) kSingleSlot c (next_local l)
       (mkOid ((proc s + fst (thread_id l)) mod 2 ^ 52) 0 0 (N.lor (next_local l) (snd (thread_id l))))).
    { split; [reflexivity|]. rewrite Ec. cbn [allocator_id id_].
      rewrite thread_id_fst, thread_id_snd by (auto; lia). split; [reflexivity|].
      cbn [compute_thread_id snd]. change (obits kSingleSlot) with 0. rewrite N.shiftl_0_r. f_equal.
      symmetry. rewrite N.land_ones. apply N.mod_small. 
      eapply N.lt_trans; [exact Hn|]. vm_compute. reflexivity. }
    destruct (N.eqb_spec (next_local l + 1) (N.shiftl 1 kIdBitCount)) as [Ef|Ef].
    + cbn [fetch_add]. intros E. apply pair_equal_spec in E; destruct E as [<- <-].
      exists c, (next_local l).
      split; [|split; [exact Henc|split; [reflexivity|split; [exact Hn|split; [lia|reflexivity]]]]].
      rewrite Hk0.
      assert (HA : Inv (mkA (proc s) (upd (counters s) kSingleSlot ((counters s kSingleSlot + 1) mod two64))
         (upd2 (locals s) t kSingleSlot (Some (mkTls (compute_thread_id (kbits kSingleSlot) (counters s kSingleSlot)) 0)))) (b + 1) ([] ++ iss)).
      { apply inv_fresh; auto; lia. }
      cbn [app] in HA.
      assert (Hmod : (counters s kSingleSlot + 1) mod two64 = counters s kSingleSlot + 1) by (apply N.mod_small; lia).
      rewrite Hmod in *.
      destruct HA as [A B C D]. constructor; cbn [counters locals] in *; auto.
      * intros sl c' m [E|Hin]; auto. injection E as <- <- <-. rewrite upd_same. split; [auto|]. split; [lia|auto].
      * intros t' sl l' Hl' Hact'. destruct (C t' sl l' Hl' Hact') as (G40 & c' & G1 & G2 & G3 & G4 & G5).
        split; auto. exists c'. repeat split; auto.
        intros m [E|Hin]; auto. injection E as E0 E1 E2. subst sl c' m. exfalso.
        destruct (N.eq_dec t' t) as [->|Ht].
        -- rewrite upd2_same in Hl'. injection Hl' as <-. cbn [thread_id] in G1.
           apply (compute_inj kSingleSlot) in G1; auto; lia.
        -- rewrite upd2_other in Hl' by auto. eapply (Hd t' l'); eauto.
      * constructor; auto. intro Hin. apply Hi in Hin. lia.
    + intros E. apply pair_equal_spec in E; destruct E as [<- <-].
      exists c, (next_local l).
      split; [|split; [exact Henc|split; [reflexivity|split; [exact Hn|split; [lia|reflexivity]]]]].
      apply inv_weaken with b; [|lia].
      apply inv_next; auto; try lia; try (left; reflexivity).
  - cbn [fetch_add]. cbn [next_local thread_id].
    replace (0 + 1 =? N.shiftl 1 kIdBitCount) with false by reflexivity.
    intros E. apply pair_equal_spec in E; destruct E as [<- <-]. cbn [proc counters locals].
    exists (counters s kSingleSlot), 0.
    split; [|split; [|split; [reflexivity|split; [reflexivity|split; [lia|reflexivity]]]]].
    + rewrite Hk0.
      change ((kSingleSlot, counters s kSingleSlot, 0) :: iss) with ((if 1 =? 0 then [] else [(kSingleSlot, counters s kSingleSlot, 0)]) ++ iss).
      apply inv_fresh; auto; lia.
    + split; [reflexivity|]. cbn [allocator_id id_].
      rewrite thread_id_fst, thread_id_snd by (auto; try lia; vm_compute; reflexivity).
      split; reflexivity.
Qed.

Lemma full_mul sl c n : exists q, full sl c n = q * 2 ^ obits sl.
Proof. exists (c * 2 ^ lbits sl + n). unfold full, kbits. rewrite N.pow_add_r. ring. Qed.

Lemma enc_alloc pr sl c n o : okslot sl -> enc pr sl c n o -> metadata o < 2 ^ 6 ->
  is_allocation o /\ allocation_of o = o.
Proof.
  intros Hok (E1 & E2 & E3) Hm. pose proof (okslot_obits sl Hok) as Ho.
  assert (Hw : wf o).
  { repeat split; auto.
    - rewrite E2. apply N.mod_lt, pow_nz.
    - rewrite E1. change (2 ^ 6) with 64. lia.
    - rewrite E3. apply N.mod_lt. vm_compute. discriminate. }
  assert (H0 : id_ o mod 2 ^ obits sl = 0).
  { rewrite E3. destruct (full_mul sl c n) as [q ->].
    assert (E : two64 = 2 ^ (64 - obits sl) * 2 ^ obits sl).
    { rewrite <- N.pow_add_r. unfold two64. f_equal. lia. }
    rewrite E, N.mul_mod_distr_r by apply pow_nz. apply N.mod_mul, pow_nz. }
  assert (Hal : is_allocation o).
  { split; auto. rewrite offset_mod, E1. auto. }
  split; auto.
  pose proof (allocation_of_id o Hw) as Hi. rewrite <- (alloc_id_mul o Hal) in Hi.
  destruct o; unfold allocation_of in *; cbn in *. congruence.
Qed.

Lemma size_le n k : n < 2 ^ k -> N.size n <= k.
Proof.
  intros H. destruct (N.eq_dec n 0) as [->|Hn]; [cbn; lia|].
  rewrite N.size_log2 by auto. assert (N.log2 n < k) by (apply N.log2_lt_pow2; lia). lia.
Qed.

Lemma allocate_inv s t size b iss o s' :
  Inv s b iss -> b + 1 < two64 -> size <= 2 ^ 63 -> allocate s t size = (o, s') ->
  proc s' = proc s /\
  match o with
  | None => Inv s' (b + 1) iss
  | Some a => exists sl c n, Inv s' (b + 1) ((sl, c, n) :: iss) /\ enc (proc s) sl c n a /\
      metadata a = 0 /\ okslot sl /\ n < 2 ^ lbits sl /\ c < two64
  end.
Proof.
  intros HI Hb Hsize. unfold allocate.
  destruct (N.leb_spec size 1) as [Hs|Hs].
  - destruct (allocate_single s t) as [o1 s1] eqn:E1. intros E. apply pair_equal_spec in E; destruct E as [<- <-].
    destruct (allocate_single_inv _ _ _ _ _ _ HI Hb E1) as (c & n & H1 & H2 & H3 & H4 & H5 & H6).
    split; auto. exists kSingleSlot, c, n.
    destruct (enc_alloc _ _ _ _ _ okslot_single H2) as [Ha Hal].
    + rewrite H3. reflexivity.
    + rewrite Hal.
      split; [exact H1|]. split; [exact H2|]. split; [exact H3|]. split; [exact okslot_single|]. auto.
  - assert (Hsz : N.size (size - 1) <= 63) by (apply size_le; lia).
    assert (Hsz0 : 1 <= N.size (size - 1)).
    { destruct (N.eq_dec (size - 1) 0); [lia|]. rewrite N.size_log2 by auto. lia. }
    assert (Hob : (64 - countl_zero64 (size - 1)) mod 2 ^ 6 = N.size (size - 1)).
    { unfold countl_zero64, bit_length. change (2 ^ 6) with 64. rewrite N.mod_small; lia. }
    rewrite Hob. set (ob := N.size (size - 1)) in *. clearbody ob. clear Hob.
    destruct (N.ltb_spec kMaxOffsetBits ob) as [Hm|Hm].
    { intros E. apply pair_equal_spec in E; destruct E as [<- <-]. split; auto. apply inv_weaken with b; auto; lia. }
    unfold kMaxOffsetBits in Hm.
    assert (Hok : okslot ob) by (left; lia).
    assert (Hns : (ob =? kSingleSlot) = false) by (apply N.eqb_neq; unfold kSingleSlot; lia).
    assert (Hobits : obits ob = ob) by (unfold obits; rewrite Hns; reflexivity).
    assert (Hlb : lbits ob = local_allocation_bit_count ob) by (unfold lbits; rewrite Hns; reflexivity).
    assert (Hkb : id_bit_count ob = kbits ob) by (unfold kbits, id_bit_count; rewrite Hlb, Hobits; reflexivity).
    pose proof (lbits_gt ob Hok) as Hl1. pose proof (inv_cnt _ _ _ HI ob) as Hcb.
    set (cur0 := match locals s t ob with Some l => l | None => mkTls (0, 0) 0 end).
    destruct (N.eqb_spec (next_local cur0) 0) as [Hz|Hz].
    + cbn [fetch_add]. cbn [next_local thread_id proc counters locals].
      intros E. apply pair_equal_spec in E; destruct E as [<- <-]. split; [reflexivity|].
      rewrite Hkb.
      assert (Henc : enc (proc s) ob (counters s ob) 0
        (mkOid ((proc s + fst (compute_thread_id (kbits ob) (counters s ob))) mod 2 ^ 52) ob 0
           (N.lor (N.land (N.shiftl 0 ob) (N.ones 64)) (snd (compute_thread_id (kbits ob) (counters s ob)))))).
      { split; [auto|]. cbn [allocator_id id_].
        rewrite thread_id_fst, thread_id_snd, Hobits by (auto; lia). split; reflexivity. }
      exists ob, (counters s ob), 0.
      destruct (enc_alloc _ _ _ _ _ Hok Henc eq_refl) as [Ha ->].
      split; [|split; [exact Henc|split; [reflexivity|split; [exact Hok|split; lia]]]].
      change (0 + 1) with 1. rewrite mask_ones, N.land_ones, <- Hlb, (N.mod_small 1) by lia.
      change ((ob, counters s ob, 0) :: iss) with ((if 1 =? 0 then [] else [(ob, counters s ob, 0)]) ++ iss).
      apply inv_fresh; auto; lia.
    + intros E. apply pair_equal_spec in E; destruct E as [<- <-]. split; [reflexivity|].
      unfold cur0 in *. clear cur0.
      destruct (locals s t ob) as [l|] eqn:El; [|cbn in Hz; congruence].
      destruct (inv_loc _ _ _ HI _ _ _ El (or_intror Hz)) as (_ & c & Ec & Hc & Hn & Hi & Hd).
      assert (Henc : enc (proc s) ob c (next_local l)
        (mkOid ((proc s + fst (thread_id l)) mod 2 ^ 52) ob 0
           (N.lor (N.land (N.shiftl (next_local l) ob) (N.ones 64)) (snd (thread_id l))))).
      { split; [auto|]. cbn [allocator_id id_]. rewrite Ec.
        rewrite thread_id_fst, thread_id_snd, Hobits by (auto; lia). split; reflexivity. }
      exists ob, c, (next_local l).
      destruct (enc_alloc _ _ _ _ _ Hok Henc eq_refl) as [Ha ->].
      split; [|split; [exact Henc|split; [reflexivity|split; [exact Hok|split; lia]]]].
      apply inv_weaken with b; [|lia].
      apply inv_next; auto; try lia; try (right; exact Hz).
      rewrite mask_ones, N.land_ones, <- Hlb.
      destruct (N.eq_dec (next_local l + 1) (2 ^ lbits ob)) as [Ef|Ef].
      * right. rewrite Ef, N.mod_same by apply pow_nz. split; auto. unfold kSingleSlot; lia.
      * left. rewrite N.mod_small by lia. split; [auto|lia].
Qed.

Lemma enc_disjoint pr sl c n f a sl' c' n' f' a' o :
  okslot sl -> okslot sl' -> n < 2 ^ lbits sl -> n' < 2 ^ lbits sl' -> 
  c < two64 -> c' < two64 ->
  enc pr sl c n a -> enc pr sl' c' n' a' -> metadata a = f -> metadata a' = f' ->
  f < 2 ^ 6 -> f' < 2 ^ 6 -> wf o ->
  contains a o = true -> contains a' o = true -> (sl, c, n) = (sl', c', n').
Proof.
  intros Hok Hok' Hn Hn' Hc Hc' He He' Hf Hf' Hff Hff' Ho C1 C2.
  destruct (enc_alloc _ _ _ _ _ Hok He ltac:(lia)) as [Ha _].
  destruct (enc_alloc _ _ _ _ _ Hok' He' ltac:(lia)) as [Ha' _].
  apply contains_spec in C1; auto. apply contains_spec in C2; auto.
  rewrite C1 in C2. subst a'.
  destruct He as (E1 & E2 & E3), He' as (E1' & E2' & E3').
  rewrite E1 in E1'. apply obits_inj in E1'; auto. subst sl'.
  rewrite E2 in E2'. rewrite E3 in E3'.
  assert (B : forall c n, c < two64 -> n < 2 ^ lbits sl -> full sl c n / two64 < 2 ^ 46).
  { intros c0 n0 Hc0 Hn0. apply N.div_lt_upper_bound; [vm_compute; discriminate|].
    pose proof (full_lt_local sl c0 n0 Hn0) as L. pose proof (kbits_le sl Hok) as Hk.
    assert (2 ^ kbits sl <= 2 ^ 46) by (apply N.pow_le_mono_r; [discriminate|auto]).
    set (K := 2 ^ kbits sl) in *. assert (c0 + 1 <= two64) by lia. nia. }
  pose proof (B c n Hc Hn) as B1. pose proof (B c' n' Hc' Hn') as B2.
  assert (Ed : full sl c n / two64 = full sl c' n' / two64).
  { set (x := full sl c n / two64) in *. set (y := full sl c' n' / two64) in *.
    assert (P : 2 ^ 52 <> 0) by discriminate.
    pose proof (N.div_mod (pr + x) (2 ^ 52) P) as D1. pose proof (N.div_mod (pr + y) (2 ^ 52) P) as D2.
    rewrite E2' in D1. change (2 ^ 52) with 4503599627370496 in *. change (2 ^ 46) with 70368744177664 in *.
    set (q1 := (pr + x) / 4503599627370496) in *. set (q2 := (pr + y) / 4503599627370496) in *.
    lia. }
  assert (full sl c n = full sl c' n').
  { rewrite (N.div_mod (full sl c n) two64), (N.div_mod (full sl c' n') two64) by (vm_compute; discriminate).
    congruence. }
  apply full_inj in H; auto. destruct H; subst; reflexivity.
Qed.

Definition tagged (pr : N) (o : option ObjectId) (tg : option (N * N * N)) : Prop :=
  match o, tg with
  | None, None => True
  | Some a, Some (sl, c, n) =>
      enc pr sl c n a /\ metadata a < 2 ^ 6 /\ okslot sl /\ n < 2 ^ lbits sl /\ c < two64
  | _, _ => False
  end.

Definition somes {A} (l : list (option A)) : list A :=
  flat_map (fun x => match x with Some y => [y] | None => [] end) l.

Lemma kind_flag_lt k : kind_flag k < 2 ^ 6.
Proof. destruct k; reflexivity. Qed.

Lemma run_tags rs : forall s b iss os s',
  Inv s b iss -> b + N.of_nat (length rs) < two64 ->
  Forall (fun r => r_size r <= 2 ^ 63) rs ->
  run s rs = (os, s') ->
  exists tags, Forall2 (tagged (proc s)) os tags /\ NoDup (somes tags ++ iss).
Proof.
  induction rs as [|r rs IH]; intros s b iss os s' HI Hb Hsz; cbn [run].
  - intros E. apply pair_equal_spec in E; destruct E as [<- <-]. exists []. split; [constructor|]. apply HI.
  - cbn [length] in Hb. rewrite Nat2N.inj_succ in Hb. inversion Hsz as [|? ? Hr Hrs]; subst.
    unfold step. destruct (allocate s (r_thread r) (r_size r)) as [o s1] eqn:Ea.
    destruct (run s1 rs) as [os' s2] eqn:Er. intros E. apply pair_equal_spec in E; destruct E as [<- <-].
    apply allocate_inv with (b := b) (iss := iss) in Ea; auto; [|lia].
    destruct Ea as [Hp Ha]. destruct o as [a|].
    + destruct Ha as (sl & c & n & HI' & He & Hm & Hok & Hn & Hc).
      destruct (IH s1 (b + 1) ((sl, c, n) :: iss) os' s2) as (tags & HF & HN); auto; [lia|].
      exists (Some (sl, c, n) :: tags). split.
      * constructor; [|rewrite <- Hp; auto]. cbn. split; [|split].
        -- destruct He as (E1 & E2 & E3). split; [auto|]. split; auto.
        -- rewrite Hm, N.lor_0_l. apply kind_flag_lt.
        -- auto.
      * cbn. change (NoDup ((sl, c, n) :: (somes tags ++ iss))).
        apply Permutation.Permutation_NoDup with (l := somes tags ++ (sl, c, n) :: iss); auto.
        symmetry. apply Permutation.Permutation_middle.
    + destruct (IH s1 (b + 1) iss os' s2) as (tags & HF & HN); auto; [lia|].
      exists (None :: tags). split; [|exact HN]. constructor; [exact I|rewrite <- Hp; auto].
Qed.

Lemma forall2_nth {A B} (R : A -> B -> Prop) l l' i a :
  Forall2 R l l' -> nth_error l i = Some a -> exists b, nth_error l' i = Some b /\ R a b.
Proof.
  intros H. revert i. induction H; intros [|i] Hn; try discriminate.
  - injection Hn as <-. exists y. split; auto.
  - cbn in *. eauto.
Qed.

Lemma somes_nth_inj {A} (l : list (option A)) : forall i j x,
  NoDup (somes l) -> nth_error l i = Some (Some x) -> nth_error l j = Some (Some x) -> i = j.
Proof.
  assert (Hin : forall (l : list (option A)) j x, nth_error l j = Some (Some x) -> In x (somes l)).
  { clear. induction l as [|y l IH]; intros [|j] x H; try discriminate; cbn in *.
    - injection H as ->. left; reflexivity.
    - apply in_app_iff. right. eauto. }
  induction l as [|y l IH]; intros [|i] [|j] x HN Hi Hj; try discriminate; auto; cbn in *.
  - injection Hi as ->. cbn in HN. inversion HN; subst. exfalso. apply H1. eauto.
  - injection Hj as ->. cbn in HN. inversion HN; subst. exfalso. apply H1. eauto.
  - f_equal. eapply IH; eauto. destruct y; auto. cbn in HN. inversion HN; auto.
Qed.

Lemma fresh_disjoint epoch rs os s' i j a b o :
  N.of_nat (length rs) < two64 ->
  Forall (fun r => r_size r <= 2 ^ 63) rs ->
  run (init epoch) rs = (os, s') ->
  i <> j -> nth_error os i = Some (Some a) -> nth_error os j = Some (Some b) ->
  wf o -> contains a o = true -> contains b o = false.
Proof.
  intros Hlen Hsz Hrun Hij Hi Hj Ho Ca.
  destruct (run_tags rs (init epoch) 0 [] os s' (init_inv epoch)) as (tags & HF & HN); auto.
  rewrite app_nil_r in HN.
  destruct (contains b o) eqn:Cb; auto. exfalso. apply Hij.
  destruct (forall2_nth _ _ _ _ _ HF Hi) as (ta & Ha1 & Ha2).
  destruct (forall2_nth _ _ _ _ _ HF Hj) as (tb & Hb1 & Hb2).
  destruct ta as [[[sl c] n]|]; [|destruct Ha2]. destruct tb as [[[sl' c'] n']|]; [|destruct Hb2].
  cbn in Ha2, Hb2. destruct Ha2 as (A1 & A2 & A3 & A4 & A5), Hb2 as (B1 & B2 & B3 & B4 & B5).
  assert (E : (sl, c, n) = (sl', c', n')) by (eapply enc_disjoint; eauto).
  rewrite <- E in Hb1. eapply somes_nth_inj; eauto.
Qed.

(** Every output is a proper allocation of sufficient capacity and the
    requested kind. *)
Lemma fresh_wf epoch rs os s' i a r :
  N.of_nat (length rs) < two64 ->
  Forall (fun r => r_size r <= 2 ^ 63) rs ->
  run (init epoch) rs = (os, s') ->
  nth_error os i = Some (Some a) -> nth_error rs i = Some r -> is_allocation a.
Proof.
  intros Hlen Hsz Hrun Hi Hr.
  destruct (run_tags rs (init epoch) 0 [] os s' (init_inv epoch)) as (tags & HF & HN); auto.
  destruct (forall2_nth _ _ _ _ _ HF Hi) as (ta & Ha1 & Ha2).
  destruct ta as [[[sl c] n]|]; [|destruct Ha2].
  cbn in Ha2. destruct Ha2 as (A1 & A2 & A3 & A4 & A5).
  eapply enc_alloc; eauto.
Qed.

(** * Size, capacity and kind of the answers *)

Lemma pow_size n : n <> 0 -> 2 ^ (N.size n - 1) <= n /\ n < 2 ^ N.size n.
Proof.
  intros H. rewrite N.size_log2 by auto.
  replace (N.succ (N.log2 n) - 1) with (N.log2 n) by lia.
  pose proof (N.log2_spec n ltac:(lia)). auto.
Qed.

Lemma allocate_capacity s t size o s' :
  size <= 2 ^ 63 -> allocate s t size = (o, s') ->
  match o with
  | Some a => size <= capacity a /\ (1 <= size -> capacity a < 2 * size) /\ size <= 2 ^ 40
  | None => 2 ^ 40 < size
  end.
Proof.
  intros Hsize. unfold allocate. destruct (N.leb_spec size 1) as [Hs|Hs].
  - unfold allocate_single. destruct (locals s t kSingleSlot) as [l|].
    + destruct (_ =? _); cbn [fetch_add]; intros E; apply pair_equal_spec in E; destruct E as [<- _];
        cbn [capacity allocation_of offset_bits]; change (capacity _) with 1; lia.
    + cbn [fetch_add]. destruct (_ =? _); cbn [fetch_add]; intros E; apply pair_equal_spec in E; destruct E as [<- _];
        change (capacity _) with 1; lia.
  - assert (Hsz : N.size (size - 1) <= 63) by (apply size_le; lia).
    assert (Hnz : size - 1 <> 0) by lia.
    pose proof (pow_size (size - 1) Hnz) as [P1 P2].
    assert (Hob : (64 - countl_zero64 (size - 1)) mod 2 ^ 6 = N.size (size - 1)).
    { unfold countl_zero64, bit_length. change (2 ^ 6) with 64. rewrite N.mod_small; lia. }
    rewrite Hob. set (ob := N.size (size - 1)) in *.
    assert (Hob1 : 1 <= ob) by (unfold ob; rewrite N.size_log2 by auto; lia).
    clearbody ob.
    assert (Hpow : 2 ^ ob = 2 * 2 ^ (ob - 1)).
    { rewrite <- N.pow_succ_r'. f_equal. lia. }
    destruct (N.ltb_spec kMaxOffsetBits ob) as [Hm|Hm].
    { intros E. apply pair_equal_spec in E; destruct E as [<- _].
      unfold kMaxOffsetBits in Hm.
      assert (2 ^ 40 <= 2 ^ (ob - 1)) by (apply N.pow_le_mono_r; [discriminate|lia]). lia. }
    assert (Hup : 2 ^ ob <= 2 ^ 40) by (apply N.pow_le_mono_r; [discriminate|exact Hm]).
    set (cur0 := match locals s t ob with Some l => l | None => mkTls (0, 0) 0 end).
    destruct (next_local cur0 =? 0); cbn [fetch_add]; intros E; apply pair_equal_spec in E; destruct E as [<- _];
      rewrite capacity_pow; cbn [allocation_of offset_bits]; lia.
Qed.

Lemma allocate_metadata s t size a s' :
  allocate s t size = (Some a, s') -> metadata a = 0.
Proof.
  unfold allocate, allocate_single. destruct (size <=? 1).
  - destruct (locals s t kSingleSlot) as [l|]; cbn [fetch_add];
      destruct (_ =? _); cbn [fetch_add]; intros E; apply pair_equal_spec in E; destruct E as [E _];
      apply (f_equal (option_map metadata)) in E; cbn in E; congruence.
  - destruct (kMaxOffsetBits <? _); [discriminate|].
    match goal with |- context[next_local ?c =? 0] => destruct (next_local c =? 0) end;
    cbn [fetch_add]; intros E; apply pair_equal_spec in E; destruct E as [E _];
    apply (f_equal (option_map metadata)) in E; cbn [option_map metadata allocation_of] in E; congruence.
Qed.

Lemma run_nth rs : forall s os s' i r,
  run s rs = (os, s') -> nth_error rs i = Some r ->
  exists s1 o s2, step s1 r = (o, s2) /\ nth_error os i = Some o.
Proof.
  induction rs as [|r0 rs IH]; intros s os s' [|i] r Hrun Hi; try discriminate;
    cbn [run] in Hrun; destruct (step s r0) as [o s1] eqn:E1; destruct (run s1 rs) as [os' s2] eqn:E2;
    apply pair_equal_spec in Hrun; destruct Hrun as [<- <-].
  - injection Hi as <-. exists s, o, s1. auto.
  - cbn in Hi |- *. eauto.
Qed.

Lemma run_capacity epoch rs os s' i r :
  r_size r <= 2 ^ 63 ->
  run (init epoch) rs = (os, s') -> nth_error rs i = Some r ->
  (2 ^ 40 < r_size r /\ nth_error os i = Some None) \/
  (r_size r <= 2 ^ 40 /\ exists a, nth_error os i = Some (Some a) /\
    r_size r <= capacity a /\ (1 <= r_size r -> capacity a < 2 * r_size r) /\
    metadata a = kind_flag (r_kind r)).
Proof.
  intros Hs Hrun Hi. destruct (run_nth _ _ _ _ _ _ Hrun Hi) as (s1 & o & s2 & Hst & Ho).
  unfold step in Hst. destruct (allocate s1 (r_thread r) (r_size r)) as [o1 s3] eqn:Ea.
  pose proof (allocate_capacity _ _ _ _ _ Hs Ea) as Hc.
  apply pair_equal_spec in Hst; destruct Hst as [<- <-].
  destruct o1 as [a|].
  - right. destruct Hc as (H1 & H2 & H3). split; auto.
    exists (with_metadata a (kind_flag (r_kind r))). split; [exact Ho|].
    change (capacity (with_metadata a (kind_flag (r_kind r)))) with (capacity a).
    split; auto. split; auto. cbn [with_metadata metadata].
    rewrite (allocate_metadata _ _ _ _ _ Ea). apply N.lor_0_l.
  - left. auto.
Qed.

(** * Lemmas behind the property file *)

Lemma digit_index c : alphanumeric c -> digit c = base62_index c.
Proof.
  intros [H|[H|H]]; unfold digit, base62_index;
      destruct (N.ltb_spec c 58), (N.ltb_spec c 91), (N.leb_spec 97 c), (N.leb_spec c 122),
        (N.leb_spec 65 c), (N.leb_spec c 90), (N.leb_spec 48 c), (N.leb_spec c 57);
      cbn [andb]; try lia.
Qed.

Lemma positional_value t : Forall alphanumeric t -> positional t = value t.
Proof.
  induction 1 as [|c t Hc Ht IH]; [reflexivity|].
  rewrite value_cons. cbn [positional]. rewrite IH, digit_index by exact Hc. reflexivity.
Qed.

Lemma repr_positional v : v < 2 ^ 128 -> positional (base62_repr v) = v.
Proof.
  intros Hv. rewrite positional_value by apply base62_repr_alnum. exact (base62_repr_value v Hv).
Qed.

Lemma itemid_text o : wf o ->
  length (encode_itemid o) = 22%nat /\ Forall alphanumeric (encode_itemid o) /\
  decode_itemid (encode_itemid o) = o.
Proof.
  exact (fun H => conj (base62_repr_length _) (conj (base62_repr_alnum _) (itemid_roundtrip o H))).
Qed.

Lemma itemid_text_inj o o' : wf o -> wf o' -> encode_itemid o = encode_itemid o' -> o = o'.
Proof. intros H H' E. rewrite <- (itemid_roundtrip o H), E. apply itemid_roundtrip; auto. Qed.

Lemma positional_surj t :
  length t = 22%nat -> Forall alphanumeric t -> positional t < 2 ^ 128 ->
  decode_base62 t = positional t /\ base62_repr (decode_base62 t) = t.
Proof.
  intros Hl Ha Hp. rewrite positional_value in * by auto. split.
  - rewrite decode_value. apply N.mod_small. exact Hp.
  - apply base62_surjective; auto.
Qed.

Lemma offsets_distinct a i j :
  is_allocation a -> i < capacity a -> j < capacity a ->
  wf (object_by_offset a i) /\
  offset (object_by_offset a i) = i /\
  allocation_of (object_by_offset a i) = a /\
  (object_by_offset a i = object_by_offset a j -> i = j).
Proof.
  intros Ha Hi Hj.
  pose proof (object_by_offset_offset a i Ha Hi) as Ei.
  pose proof (object_by_offset_offset a j Ha Hj) as Ej.
  split; [exact (object_by_offset_wf a i Ha Hi)|]. split; [exact Ei|].
  split; [exact (object_by_offset_alloc a i Ha Hi)|].
  intros E. rewrite <- Ei, E. exact Ej.
Qed.

Lemma item_position o : wf o ->
  is_allocation (allocation_of o) /\ offset o < capacity (allocation_of o) /\
  object_by_offset (allocation_of o) (offset o) = o.
Proof.
  exact (fun H => conj (allocation_of_is_allocation o H) (conj (offset_lt o) (object_reassemble o H))).
Qed.

Lemma allocs_disjoint a b o :
  is_allocation a -> is_allocation b -> wf o ->
  contains a o = true -> contains b o = true -> a = b.
Proof.
  intros Ha Hb Ho Ca Cb. apply (contains_spec a o Ha Ho) in Ca. apply (contains_spec b o Hb Ho) in Cb.
  congruence.
Qed.

Lemma nofollow_roundtrip o :
  wf o -> is_schema o = true -> is_nofollow_schema o = false ->
  wf (create_nofollow o) /\ is_nofollow_schema (create_nofollow o) = true /\
  is_schema (create_nofollow o) = true /\ create_nofollow o <> o /\
  is_uuid (create_nofollow o) = is_uuid o /\ offset (create_nofollow o) = offset o /\
  get_original_from_nofollow (create_nofollow o) = o.
Proof.
  intros (H1 & H2 & H3 & H4) Hs Hn.
  apply N.leb_le in Hs. apply N.eqb_neq in Hn.
  destruct (flags_nofollow (metadata o) H3 Hs Hn) as (F1 & F2 & F3 & F4 & F5 & F6).
  split; [exact (conj H1 (conj H2 (conj F1 H4)))|].
  split; [exact (proj2 (N.eqb_eq _ _) F2)|].
  split; [exact (proj2 (N.leb_le _ _) F6)|].
  split; [exact (fun E => F3 (eq_sym (f_equal metadata E)))|].
  split; [exact (f_equal (fun x => negb (x =? 0)) F5)|].
  split; [reflexivity|].
  unfold create_nofollow, get_original_from_nofollow. cbn [allocator_id offset_bits metadata id_].
  rewrite F4. destruct o; reflexivity.
Qed.

Lemma nofollow_inj o o' :
  wf o -> is_schema o = true -> is_nofollow_schema o = false ->
  wf o' -> is_schema o' = true -> is_nofollow_schema o' = false ->
  create_nofollow o = create_nofollow o' -> o = o'.
Proof.
  intros H1 H2 H3 H1' H2' H3' E.
  destruct (nofollow_roundtrip o H1 H2 H3) as (_ & _ & _ & _ & _ & _ & R).
  destruct (nofollow_roundtrip o' H1' H2' H3') as (_ & _ & _ & _ & _ & _ & R').
  congruence.
Qed.

Lemma kinds_apart o :
  wf o -> b2n (is_entity o) + b2n (is_list o) + b2n (is_dict o) + b2n (is_schema o) <= 1.
Proof. exact (fun H => kinds_exclusive (metadata o) (proj1 (proj2 (proj2 H))) 0 0). Qed.

Lemma derived_uuid flag m fp :
  wf m -> wf fp -> flag < 64 -> N.odd flag = true ->
  wf (create_uuid_with_main_object flag m fp) /\
  is_uuid (create_uuid_with_main_object flag m fp) = true /\
  offset (create_uuid_with_main_object flag m fp) = offset m /\
  capacity (allocation_of (create_uuid_with_main_object flag m fp)) = capacity (allocation_of m) /\
  (forall m', wf m' -> allocation_of m' = allocation_of m ->
     allocation_of (create_uuid_with_main_object flag m' fp) =
     allocation_of (create_uuid_with_main_object flag m fp)).
Proof.
  intros Hm Hf Hfl Hodd.
  split; [exact (uuid_main_wf flag m fp Hm Hf Hfl)|].
  split.
  { unfold is_uuid, create_uuid_with_main_object, kUuidFlag; cbn [metadata].
    destruct flag as [|[p|p|]]; try discriminate; reflexivity. }
  split; [exact (uuid_main_offset flag m fp Hm Hf)|].
  split; [reflexivity|].
  exact (fun m' Hm' E => uuid_main_alloc flag m' m fp Hm' Hm Hf E).
Qed.
