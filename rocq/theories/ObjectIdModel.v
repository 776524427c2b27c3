(** Model of koladata/internal/object_id.h: the 128-bit object identifier, its
    bit fields, allocation ids and the derived (uuid / nofollow) identifiers.
    The four C++ bit fields are four N components; [wf] says they fit their
    widths. All operations that may wrap are reduced explicitly. *)
From Coq Require Import NArith List Bool.
From Verif Require Import Base62Model.
Import ListNotations.
Open Scope N_scope.

(** object_id.h:237-262 private fields of ObjectId *)
Record ObjectId := mkOid {
  allocator_id : N;   (* : 52 *)
  offset_bits : N;    (* : 6 *)
  metadata : N;       (* : 6 *)
  id_ : N             (* uint64_t *)
}.

(** The values the C++ bit fields can hold. *)
Definition wf (o : ObjectId) : Prop :=
  allocator_id o < 2 ^ 52 /\ offset_bits o < 2 ^ 6 /\ metadata o < 2 ^ 6 /\ id_ o < 2 ^ 64.

(** object_id.h:202-204 InternalHigh64 (little endian: first field lowest) *)
Definition internal_high64 (o : ObjectId) : N :=
  N.lor (allocator_id o)
    (N.lor (N.shiftl (offset_bits o) 52) (N.shiftl (metadata o) 58)).
(** object_id.h:205 *)
Definition internal_low64 (o : ObjectId) : N := id_ o.

(** object_id.h:206-211 UnsafeCreateFromInternalHighLow *)
Definition unsafe_create (hi lo : N) : ObjectId :=
  mkOid (N.land hi (N.ones 52)) (N.land (N.shiftr hi 52) (N.ones 6))
        (N.land (N.shiftr hi 58) (N.ones 6)) (N.land lo (N.ones 64)).

(** object_id.h:104-106 ToRawInt128 *)
Definition to_raw_int128 (o : ObjectId) : N :=
  internal_high64 o * two64 + internal_low64 o.

(** object_id.h:114-117 operator== *)
Definition oid_eqb (a b : ObjectId) : bool :=
  (internal_high64 a =? internal_high64 b) && (internal_low64 a =? internal_low64 b).

(** object_id.h:77 Offset *)
Definition offset (o : ObjectId) : N :=
  N.land (id_ o) (N.shiftl 1 (offset_bits o) - 1).

(** object_id.h:147-184 flags *)
Definition kUuidFlag : N := 1.
Definition kListFlag : N := 2.
Definition kDictFlag : N := 4.
Definition kStartSchemaFlag : N := 56.                 (* 111000 *)
Definition kUuidImplicitSchemaFlag : N := 57.          (* 111001 *)
Definition kStartExplicitSchemaFlag : N := 58.         (* 111010 *)
Definition kNoFollowSchemaFlag : N := 58.              (* 111010 *)
Definition kExplicitSchemaFlag : N := 60.              (* 111100 *)
Definition kUuidExplicitSchemaFlag : N := 61.          (* 111101 *)
Definition kUnspecifiedFlag : N := 47.                 (* 101111 *)

(** object_id.h:79-101 kind predicates *)
Definition is_uuid (o : ObjectId) : bool := negb (N.land (metadata o) kUuidFlag =? 0).
Definition clear_uuid (m : N) : N := N.ldiff m kUuidFlag.
Definition is_entity (o : ObjectId) : bool := clear_uuid (metadata o) =? 0.
Definition is_list (o : ObjectId) : bool := clear_uuid (metadata o) =? kListFlag.
Definition is_dict (o : ObjectId) : bool := clear_uuid (metadata o) =? kDictFlag.
Definition is_schema (o : ObjectId) : bool := kStartSchemaFlag <=? metadata o.
Definition is_explicit_schema (o : ObjectId) : bool := kStartExplicitSchemaFlag <=? metadata o.
Definition is_implicit_schema (o : ObjectId) : bool := metadata o =? kUuidImplicitSchemaFlag.
Definition is_nofollow_schema (o : ObjectId) : bool :=
  N.land (metadata o) kNoFollowSchemaFlag =? kNoFollowSchemaFlag.

(** object_id.h:50-51, 112 *)
Definition kSmallAllocMaxBits : N := 1.
Definition is_small_alloc (o : ObjectId) : bool := offset_bits o <=? kSmallAllocMaxBits.

(** object_id.h:288-293 AllocationId(ObjectId): an allocation id is an object
    id whose offset bits are cleared. *)
Definition allocation_of (o : ObjectId) : ObjectId :=
  mkOid (allocator_id o) (offset_bits o) (metadata o)
        (N.land (N.shiftl (N.shiftr (id_ o) (offset_bits o)) (offset_bits o)) (N.ones 64)).

(** object_id.h:317 Capacity *)
Definition capacity (a : ObjectId) : N := N.shiftl 1 (offset_bits a).

(** object_id.h:320-324 Contains *)
Definition contains (a o : ObjectId) : bool :=
  (internal_high64 a =? internal_high64 o) &&
  (N.shiftr (N.lxor (internal_low64 o) (internal_low64 a)) (offset_bits a) =? 0).

(** object_id.h:327-332 ObjectByOffset *)
Definition object_by_offset (a : ObjectId) (off : N) : ObjectId :=
  mkOid (allocator_id a) (offset_bits a) (metadata a) (N.lor (id_ a) off).

(** A 128-bit fingerprint copied over an ObjectId (memcpy) is just an ObjectId
    with arbitrary fields, hence [fp : ObjectId] below. *)

(** object_id.h:438-452 CreateUuidWithMainObject<uuid_flag> *)
Definition create_uuid_with_main_object (uuid_flag : N) (main fp : ObjectId) : ObjectId :=
  let ob := offset_bits main in
  let mask := N.shiftl 1 ob - 1 in
  mkOid (allocator_id fp) ob uuid_flag
        (N.lxor (id_ fp) (N.land (N.lxor (id_ main) (id_ fp)) mask)).

(** object_id.h:454-463 CreateUuidObjectWithMetadata *)
Definition create_uuid_object_with_metadata (fp : ObjectId) (flag : N) : ObjectId :=
  mkOid (allocator_id fp) 0 flag (id_ fp).

(** absl::countl_zero on 64 bits: 64 - bit length. *)
Definition bit_length (n : N) : N := N.size n.
Definition countl_zero64 (n : N) : N := 64 - bit_length n.

(** object_id.h:469-486 AllocateUuids; [size - 1] is size_t arithmetic *)
Definition allocate_uuids (fp : ObjectId) (size : N) : ObjectId :=
  let ob := (64 - countl_zero64 ((size + two64 - 1) mod two64)) mod 2 ^ 6 in
  let off := N.land (id_ fp) (N.shiftl 1 ob - 1) in
  let id1 := N.lxor (id_ fp) (N.land (N.shiftl off ob) (N.ones 64)) in
  allocation_of (mkOid (allocator_id fp) ob kUuidFlag id1).

(** object_id.h:495-500 CreateNoFollowWithMainObject *)
Definition create_nofollow (o : ObjectId) : ObjectId :=
  mkOid (allocator_id o) (offset_bits o) (N.lor (metadata o) kNoFollowSchemaFlag) (id_ o).

(** object_id.h:509-519 GetOriginalFromNoFollow: clears bit 1 *)
Definition get_original_from_nofollow (o : ObjectId) : ObjectId :=
  mkOid (allocator_id o) (offset_bits o)
        (N.ldiff (metadata o) (N.ldiff kNoFollowSchemaFlag kStartSchemaFlag)) (id_ o).

(** object_id.cc:46-53 NoFollowObjectSchemaId *)
Definition nofollow_object_schema_id : ObjectId := mkOid 0 0 kNoFollowSchemaFlag 0.

(** object_id.h:368-407 the metadata of lists, dicts and explicit schemas made
    from a plain allocation. *)
Definition with_metadata (o : ObjectId) (flag : N) : ObjectId :=
  mkOid (allocator_id o) (offset_bits o) (N.lor (metadata o) flag) (id_ o).

(** itemid.cc:36-40, 44-55: encode_itemid / decode_itemid on one item *)
Definition encode_itemid (o : ObjectId) : list N := base62_repr (to_raw_int128 o).
Definition decode_itemid (t : list N) : ObjectId :=
  let d := decode_base62 t in unsafe_create (d / two64) (d mod two64).

(** Allocation of fresh ids by several threads (object_id.cc:59-171). *)

(** object_id.cc:71 *)
Definition kMaxOffsetBits : N := 40.
(** object_id.cc:84-86: bits of an allocation handed out from thread-local
    storage, for allocations with [ob] offset bits *)
Definition local_allocation_bit_count (ob : N) : N := (64 - ob) / 4.
(** object_id.cc:94-95: id bits taken by local part and offset *)
Definition id_bit_count (ob : N) : N := local_allocation_bit_count ob + ob.
(** object_id.cc:141 *)
Definition kIdBitCount : N := 24.

(** The pair computed from one value of a global counter
    (object_id.cc:88-104, 144-153). [k] is id_bit_count or kIdBitCount. *)
Definition compute_thread_id (k : N) (counter : N) : N * N :=
  (N.shiftr counter (64 - k), N.land (N.shiftl counter k) (N.ones 64)).

(** What a thread holds for one offset_bits value (object_id.cc:106-110,
    155-156): the current pair and the next local allocation number. *)
Record tls := mkTls { thread_id : N * N; next_local : N }.

(** Process state: the 52-bit allocator id (constant in a process), the global
    counters and the thread-local storage of each thread. Both are indexed by
    a slot: slots 0..40 are the array entries of Allocate (object_id.cc:76,
    106-110), slot 64 is the separate counter and storage of
    AllocateSingleObject (object_id.cc:143, 155-156). *)
Definition kSingleSlot : N := 64.
Record astate := mkA {
  proc : N;
  counters : N -> N;
  locals : N -> N -> option tls   (* thread -> slot -> storage *)
}.

Definition upd {A} (f : N -> A) (k : N) (v : A) : N -> A :=
  fun i => if i =? k then v else f i.
Definition upd2 {A} (f : N -> N -> A) (t k : N) (v : A) : N -> N -> A :=
  fun t' => if t' =? t then upd (f t') k v else f t'.

(** object_id.cc:39-42 AllocatorId and initial zeros of all storage *)
Definition init (epoch : N) : astate :=
  mkA (N.land epoch (N.shiftl 1 52 - 1)) (fun _ => 0) (fun _ _ => None).

(** object_id.cc:134-171 AllocateSingleObject run by thread [t]. The
    thread_local initialiser runs at the first call in a thread; the next pair
    is fetched as soon as the local range is used up. *)
Definition fetch_add (s : astate) (sl k : N) : (N * N) * astate :=
  let c := counters s sl in
  (compute_thread_id k c, mkA (proc s) (upd (counters s) sl ((c + 1) mod two64)) (locals s)).

Definition allocate_single (s : astate) (t : N) : ObjectId * astate :=
  let '(cur, s1) :=
    match locals s t kSingleSlot with
    | Some l => (l, s)
    | None => let '(p, s1) := fetch_add s kSingleSlot kIdBitCount in (mkTls p 0, s1)
    end in
  let o := mkOid ((proc s1 + fst (thread_id cur)) mod 2 ^ 52) 0 0
                 (N.lor (next_local cur) (snd (thread_id cur))) in
  let n := next_local cur + 1 in
  if n =? N.shiftl 1 kIdBitCount
  then let '(p, s2) := fetch_add s1 kSingleSlot kIdBitCount in
       (o, mkA (proc s2) (counters s2) (upd2 (locals s2) t kSingleSlot (Some (mkTls p 0))))
  else (o, mkA (proc s1) (counters s1) (upd2 (locals s1) t kSingleSlot (Some (mkTls (thread_id cur) n)))).

(** object_id.cc:59-132 Allocate(size) run by thread [t]; [None] is the CHECK
    failure for allocations above 2^40. The bit field assignment of
    offset_bits_ truncates to 6 bits before the CHECK. *)
Definition allocate (s : astate) (t size : N) : option ObjectId * astate :=
  if size <=? 1 then let '(o, s') := allocate_single s t in (Some (allocation_of o), s')
  else
    let ob := (64 - countl_zero64 (size - 1)) mod 2 ^ 6 in
    if kMaxOffsetBits <? ob then (None, s) else
    let cur := match locals s t ob with Some l => l | None => mkTls (0, 0) 0 end in
    let '(cur, s1) :=
      if next_local cur =? 0
      then let '(p, s1) := fetch_add s ob (id_bit_count ob) in (mkTls p 0, s1)
      else (cur, s) in
    let id := N.lor (N.land (N.shiftl (next_local cur) ob) (N.ones 64)) (snd (thread_id cur)) in
    let o := mkOid ((proc s1 + fst (thread_id cur)) mod 2 ^ 52) ob 0 id in
    let n := N.land (next_local cur + 1) (N.shiftl 1 (local_allocation_bit_count ob) - 1) in
    (Some (allocation_of o),
     mkA (proc s1) (counters s1) (upd2 (locals s1) t ob (Some (mkTls (thread_id cur) n)))).

(** object_id.h:368-407 what is requested: entities, lists, dicts, schemas *)
Inductive kind := KEntity | KList | KDict | KExplicitSchema.
Definition kind_flag (k : kind) : N :=
  match k with KEntity => 0 | KList => kListFlag | KDict => kDictFlag
             | KExplicitSchema => kExplicitSchemaFlag end.
Record request := mkReq { r_thread : N; r_kind : kind; r_size : N }.

(** One call of Allocate / AllocateLists / AllocateDicts /
    AllocateExplicitSchemas (size 1 also covers the AllocateSingle* calls). *)
Definition step (s : astate) (r : request) : option ObjectId * astate :=
  let '(o, s') := allocate s (r_thread r) (r_size r) in
  (option_map (fun a => with_metadata a (kind_flag (r_kind r))) o, s').

Fixpoint run (s : astate) (rs : list request) : list (option ObjectId) * astate :=
  match rs with
  | [] => ([], s)
  | r :: rs' => let '(o, s1) := step s r in
                let '(os, s2) := run s1 rs' in (o :: os, s2)
  end.
