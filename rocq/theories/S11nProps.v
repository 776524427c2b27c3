(** C45: a serialized item or slice decodes to the same item or slice. *)
From Coq Require Import NArith ZArith List Bool Arith Lia.
From Verif Require Import ObjectIdModel SchemaModel ItemModel S11nModel S11nSpec S11nProofs.
Import ListNotations.
Local Open Scope nat_scope.

(** The item that is decoded is the one that was encoded. *)
Theorem C45_item_round_trip :
  forall x : option value, (forall v, x = Some v -> valid_value v) ->
  decode_item (fst (encode_item x)) (snd (encode_item x)) = Ok x.
Proof. exact item_round_trip. Qed.

(** An item is decoded from exactly the values it needs: one expression if it is an
    expression, and none otherwise. *)
Theorem C45_item_uses_all_inputs :
  forall (p : item_proto) (ins : list input) (x : option value), decode_item p ins = Ok x ->
  (p = PExprQuote /\ exists e, ins = [InExpr e] /\ x = Some (val KExprQuote e)) \/ (p <> PExprQuote /\ ins = []).
Proof. exact item_uses_all_inputs. Qed.

(** Whatever the size at which the message is split into parts, the decoded slice is
    of the same size, has at each position what the encoded one has there, and
    knows the allocations of exactly its ids. *)
Theorem C45_slice_round_trip :
  forall (limit : N) (s : dslice), wf_slice s ->
  let '(p, ins) := encode_slice limit s in
  exists b, decode_slice p ins = Ok b /\ length (b_items b) = ds_size s /\
    (forall i x, i < ds_size s -> (nth_error (b_items b) i = Some x <-> holds s i x)) /\
    (forall a, In a (b_ids b) <->
       exists i o, i < ds_size s /\ holds s i (Some (Some (val KObjectId o))) /\ a = allocation_of o).
Proof.
  intros limit s W. pose proof (slice_round_trip limit s W) as H. destruct (encode_slice limit s) as [p ins].
  destruct H as (b & E & Ei & Ea). exists b. split; [exact E|].
  assert (Nth : forall i, i < ds_size s -> nth_error (b_items b) i = Some (content s i)).
  { intros i L. rewrite Ei, nth_error_map.
    rewrite (nth_error_nth' (seq 0 (ds_size s)) 0) by (now rewrite seq_length). now rewrite seq_nth. }
  assert (Len : length (b_items b) = ds_size s) by (rewrite Ei, map_length; apply seq_length).
  split; [exact Len|]. split.
  - intros i x L. rewrite (Nth i L). rewrite (holds_iff s i x W). split; [intros E'; now inversion E'|intros ->; reflexivity].
  - intros a. rewrite Ea. unfold allocations. rewrite in_flat_map. split.
    + intros ([k o] & Hv & Ha). unfold of_kind in Hv. apply in_flat_map in Hv. destruct Hv as ([[w|]|] & Hx & Hv); try destruct Hv.
      destruct (kind_eq_dec (projT1 w) KObjectId) as [Ek|]; [|destruct Hv]. destruct Hv as [Hw|[]]. subst w. cbn in Ek. subst k.
      destruct Ha as [Ha|[]]. apply In_nth_error in Hx. destruct Hx as [i Hx].
      assert (L : i < ds_size s) by (rewrite <- Len; apply nth_error_Some; intros E'; discriminate (eq_trans (eq_sym Hx) E')).
      exists i, o. split; auto. split; auto. apply holds_iff; auto. pose proof (eq_trans (eq_sym (Nth i L)) Hx) as Hc. now inversion Hc.
    + intros (i & o & L & Hh & ->). apply holds_iff in Hh; auto. exists (val KObjectId o). split; [|now left].
      unfold of_kind. apply in_flat_map. exists (content s i). split.
      * eapply nth_error_In. apply Nth. exact L.
      * rewrite <- Hh. cbn. now left.
Qed.

(** The older format of slices: a list of items *)
Theorem C45_vector_round_trip :
  forall xs : list (option value), (forall x v, In x xs -> x = Some v -> valid_value v) ->
  exists b, decode_vector (map (fun x => fst (encode_item x)) xs) (flat_map (fun x => snd (encode_item x)) xs) = Ok b /\
    b_items b = map Some xs.
Proof. intros xs V. destruct (vector_round_trip xs V) as (b & H & H' & _). exists b. auto. Qed.

(** The decoder accepts the messages that stand for a slice, whoever wrote them,
    and no other ones, and decodes that slice. *)
Theorem C45_decodes_what_the_format_says :
  forall (p : compact) (ins : list input) (xs : list slot),
  denotes p ins xs <->
  exists b, decode_slice p ins = Ok b /\ b_items b = xs /\ b_ids b = allocations xs.
Proof.
  intros p ins xs. split.
  - intros D. destruct (decode_slice_complete p ins xs D) as (b & E & Eb). exists b. split; auto. split; auto.
    rewrite <- Eb. now apply (decode_slice_ok p ins).
  - intros (b & E & <- & _). now apply decode_slice_ok in E.
Qed.

(** No message makes the decoder read outside of an array. *)
Theorem C45_decoder_stays_in_bounds :
  forall (p : compact) (ins : list input), decode_slice p ins <> Crash.
Proof. exact decode_slice_safe. Qed.

(** Not every value of a message has to be used: values of a type that does not
    occur are only looked for in the first message. *)
Theorem C45_unused_values_are_rejected_refuted :
  exists p ins parts b, ins = map InPart parts /\ decode_slice p ins = Ok b /\ b_items b = [Some (Some (val KInt32 5%Z))] /\
    concat (map c_text parts) <> [].
Proof.
  pose (part := mkCompact [] 0 [] [] [5%Z] [] [] [] [] [[104%N]] [] []).
  exists (mkCompact [2%N] 1 [] [] [] [] [] [] [] [] [] []), [InPart part], [part]. eexists.
  split; [reflexivity|]. split; [vm_compute; reflexivity|]. split; [reflexivity|]. discriminate.
Qed.
(** The number of a dtype is taken modulo 256. *)
Theorem C45_unknown_dtypes_are_rejected_refuted :
  exists z x, (z < 0 \/ 14 <= z)%Z /\ decode_item (PDtype z) [] = Ok (Some x).
Proof. exists 259%Z, (val KDType Float64). split; [right; discriminate|vm_compute; reflexivity]. Qed.

(** The example of codec.proto: [10, 3.1, UNSET, 11, Unit, expr1, 3.5, 3.7, REMOVED,
    expr2] *)
Definition format_example : compact :=
  mkCompact [2; 4; 255; 2; 7; 11; 4; 4; 254; 11]%N 0 [] [] [10; 11]%Z [] [31; 35; 37]%N [] [] [] [] [].
Example C45_format_example :
  exists b, decode_slice format_example [InExpr 1; InExpr 2] = Ok b /\
  b_items b = [Some (Some (val KInt32 10%Z)); Some (Some (val KFloat32 31%N)); None; Some (Some (val KInt32 11%Z));
               Some (Some (val KUnit tt)); Some (Some (val KExprQuote 1%N)); Some (Some (val KFloat32 35%N));
               Some (Some (val KFloat32 37%N)); Some None; Some (Some (val KExprQuote 2%N))].
Proof. eexists. split; [vm_compute; reflexivity|reflexivity]. Qed.

Definition id_a : ObjectId := mkOid 7 3 0 80.
Definition id_b : ObjectId := mkOid 7 3 0 17.
Definition slice_example : dslice :=
  mkDslice 5 [TIdx 0; TUnset; TIdx 1; TIdx 0; TRemoved]
    [existT _ KObjectId [Some id_a; None; None; Some id_b; None];
     existT _ KText [None; None; Some [104; 105]%N; None; None]].
(** with a limit of 10 bytes there are two further parts, the last of them of text *)
Example C45_hypotheses_met :
  wf_slice slice_example /\
  (let '(p, ins) := encode_slice 10 slice_example in
   types_buffer p = [1; 255; 8; 1; 254]%N /\ extra_part_count p = 2%Z /\ length (c_hi p) = 1 /\
   exists part, nth_error ins 0 = Some (InPart part) /\ c_hi part = [0]%N /\ c_lo part = [2 ^ 64 - 63]%N) /\
  holds slice_example 1 None /\ holds slice_example 3 (Some (Some (val KObjectId id_b))) /\
  holds slice_example 4 (Some None).
Proof.
  split.
  { constructor.
    - right. reflexivity.
    - intros k vs [H|[H|[]]]; exact (eq_sym (f_equal (fun a => length (projT2 a)) H)).
    - repeat constructor; cbn; intuition discriminate.
    - intros a a' i v v' [<-|[<-|[]]] [<-|[<-|[]]]; auto;
        do 5 (destruct i as [|i]; [cbn; discriminate|]); cbn; destruct i; discriminate.
    - intros a i v [<-|[<-|[]]]; do 5 (destruct i as [|i]; [cbn; try discriminate; intros E; injection E as <-; cbn; unfold wf; cbn; repeat split; reflexivity|]);
        cbn; destruct i; discriminate. }
  split; [vm_compute; repeat split; eexists; repeat split; reflexivity|].
  split; [|split].
  - right. split; [intros a [<-|[<-|[]]]; reflexivity|]. left. auto.
  - left. exists (existT _ KObjectId [Some id_a; None; None; Some id_b; None]), (val KObjectId id_b). repeat split. now left.
  - right. split; [intros a [<-|[<-|[]]]; reflexivity|]. right. split; [discriminate|reflexivity].
Qed.

Print Assumptions C45_item_round_trip.
Print Assumptions C45_item_uses_all_inputs.
Print Assumptions C45_slice_round_trip.
Print Assumptions C45_vector_round_trip.
Print Assumptions C45_decodes_what_the_format_says.
Print Assumptions C45_decoder_stays_in_bounds.
Print Assumptions C45_unused_values_are_rejected_refuted.
Print Assumptions C45_unknown_dtypes_are_rejected_refuted.
