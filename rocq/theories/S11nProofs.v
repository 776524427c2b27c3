From Coq Require Import NArith ZArith List Bool Arith Lia.
From Verif Require Import ObjectIdModel ObjectIdProofs SchemaModel SchemaProofs ItemModel S11nModel S11nSpec.
Import ListNotations.
Local Open Scope nat_scope.

Notation slot := (option (option value)) (only parsing).

(** ** Basics *)

Lemma field_scalar k : scalar_type_id k = field_number k.
Proof. now destruct k. Qed.
Lemma field_inj k k' : field_number k = field_number k' -> k = k'.
Proof. destruct k, k'; cbn; congruence. Qed.
Lemma kind_of_field k : kind_of_id (field_number k) = Some k.
Proof. now destruct k. Qed.
Lemma valid_field k : valid_idx (field_number k) = true.
Proof. now destruct k. Qed.
Lemma field_small k : (field_number k < 12)%N.
Proof. destruct k; cbn; lia. Qed.
Lemma valid_idx_field t : valid_idx t = true -> exists k, t = field_number k.
Proof.
  unfold valid_idx. rewrite andb_true_iff, !N.ltb_lt. intros [H1 H2].
  assert (t = 1 \/ t = 2 \/ t = 3 \/ t = 4 \/ t = 5 \/ t = 6 \/ t = 7 \/ t = 8 \/ t = 9 \/ t = 10 \/ t = 11)%N as C by lia.
  destruct C as [-> | [-> | [-> | [-> | [-> | [-> | [-> | [-> | [-> | [-> | ->]]]]]]]]]].
  - now exists KObjectId. - now exists KInt32. - now exists KInt64. - now exists KFloat32.
  - now exists KFloat64. - now exists KBool. - now exists KUnit. - now exists KText.
  - now exists KBytes. - now exists KDType. - now exists KExprQuote.
Qed.
Lemma all_kinds_in k : In k all_kinds.
Proof. destruct k; cbn; tauto. Qed.

Lemma to_int8_mod z : (0 <= to_int8 z)%Z -> to_int8 z = (z mod 256)%Z.
Proof.
  unfold to_int8. intros H. pose proof (Z.mod_pos_bound (z + 128) 256 ltac:(lia)).
  assert (E : ((z + 128) mod 256 - 128 = z mod 256)%Z); [|exact E].
  set (m := ((z + 128) mod 256)%Z) in *.
  assert (Em : (z + 128 = 256 * ((z + 128) / 256) + m)%Z) by (apply Z.div_mod; lia).
  apply Z.mod_unique with ((z + 128) / 256)%Z; [left; lia|lia].
Qed.
Lemma to_int8_small z : (0 <= z mod 256 < 128)%Z -> to_int8 z = (z mod 256)%Z.
Proof.
  unfold to_int8. intros H.
  assert (E : (((z + 128) mod 256) = z mod 256 + 128)%Z).
  { symmetry. apply Z.mod_unique with (z / 256)%Z; [left; lia|].
    pose proof (Z.div_mod z 256 ltac:(lia)). lia. }
  rewrite E. lia.
Qed.
Lemma type_id_lt d : (type_id d < 14)%N.
Proof. destruct d; cbn; lia. Qed.
Lemma type_id_9 d : (type_id d <> 9)%N.
Proof. destruct d; cbn; lia. Qed.
Lemma dtype_from_id_iff z d : dtype_from_id z = Some d <-> (z mod 256)%Z = Z.of_N (type_id d).
Proof.
  unfold dtype_from_id. split.
  - destruct (to_int8 z =? 9)%Z; [discriminate|].
    destruct ((to_int8 z <? 0) || (14 <=? to_int8 z))%Z eqn:E; [discriminate|].
    apply orb_false_iff in E. destruct E as [E1 E2]. apply Z.ltb_ge in E1. apply Z.leb_gt in E2.
    intros H. apply of_id_type in H. rewrite H, <- (to_int8_mod z) by lia. lia.
  - intros H. pose proof (type_id_lt d). pose proof (type_id_9 d).
    rewrite (to_int8_small z) by (rewrite H; lia). rewrite H.
    destruct (Z.eqb_spec (Z.of_N (type_id d)) 9); [lia|].
    destruct (Z.ltb_spec (Z.of_N (type_id d)) 0); [lia|].
    destruct (Z.leb_spec 14 (Z.of_N (type_id d))); [lia|]. cbn [orb].
    rewrite N2Z.id. apply of_type_id.
Qed.

Lemma set_nth_app {A} (pre : list A) x y suf :
  set_nth (length pre) y (pre ++ x :: suf) = pre ++ y :: suf.
Proof. induction pre; cbn; congruence. Qed.
Lemma nth_error_mid {A} (pre : list A) x suf : nth_error (pre ++ x :: suf) (length pre) = Some x.
Proof. rewrite nth_error_app2, Nat.sub_diag; auto. Qed.

Definition upd (y : option value) (x : slot) : slot := match x with None => Some y | _ => x end.
Lemma insert_app pre x suf ids y :
  insert (length pre) y (mkBuilder (pre ++ x :: suf) ids) = mkBuilder (pre ++ upd y x :: suf) ids.
Proof.
  unfold insert; cbn [b_items b_ids]. rewrite nth_error_mid. destruct x; cbn [upd]; auto.
  now rewrite set_nth_app.
Qed.

(** ** One type *)

Definition alloc_ids (k : kind) (v : cval k) : list ObjectId :=
  match k return cval k -> list ObjectId with KObjectId => fun o => [allocation_of o] | _ => fun _ => [] end v.
(** the source of the values of a type: the values in the messages, the input
    values, the last id *)
Definition src (k : kind) : Type := (list (raw k) * list input * ObjectId)%type.
Definition pull (k : kind) (s : src k) : option (cval k * src k) :=
  let '(rs, ins, last) := s in
  match k as k' return list (raw k') -> option (cval k' * (list (raw k') * list input * ObjectId)) with
  | KUnit => fun rs => Some (tt, (rs, ins, last))
  | KExprQuote => fun rs => match ins with InExpr e :: r => Some (e, (rs, r, last)) | _ => None end
  | k' => fun rs =>
      match rs with
      | [] => None
      | r :: rs => match of_raw k' r last with Ok (v, last') => Some (v, (rs, ins, last')) | _ => None end
      end
  end rs.

Definition good (k : kind) (c : compact) : Prop := k = KObjectId -> length (c_hi c) = length (c_lo c).
Lemma good_size k c : good k c <-> values_size k c = Ok (length (values_of k c)).
Proof.
  unfold good. destruct k; cbn; try (split; [reflexivity|discriminate]); try tauto.
  rewrite combine_length. destruct (Nat.eqb_spec (length (c_hi c)) (length (c_lo c))) as [E|E].
  - rewrite E, Nat.min_id. tauto.
  - split; [intros H; now destruct E; apply H|discriminate].
Qed.
Lemma size_cases k c : values_size k c = Ok (length (values_of k c)) \/ values_size k c = Err /\ ~ good k c.
Proof.
  destruct k; cbn; auto. unfold good. rewrite combine_length.
  destruct (Nat.eqb_spec (length (c_hi c)) (length (c_lo c))) as [E|E].
  - left. now rewrite E, Nat.min_id.
  - right. split; auto.
Qed.
Definition src_of (k : kind) (st : pt) : src k :=
  (skipn (p_last_id st - p_offset st) (values_of k (p_values st)) ++
   concat (map (values_of k) (p_parts st)), p_inputs st, p_last st).
Record pinv (k : kind) (st : pt) : Prop := {
  pi_size : p_size st = length (values_of k (p_values st));
  pi_off : p_offset st <= p_last_id st <= p_offset st + p_size st;
  pi_parts : Forall (good k) (p_parts st)
}.

Lemma next_parts_spec k last_id parts : forall off size values,
  Forall (good k) parts -> size = length (values_of k values) -> off <= last_id <= off + size ->
  match skipn (last_id - off) (values_of k values) ++ concat (map (values_of k) parts) with
  | [] => next_parts k (fun o s => o + s <=? last_id) parts off size values = Err
  | r :: rs =>
      exists off' values' parts',
        next_parts k (fun o s => o + s <=? last_id) parts off size values =
          Ok (off', length (values_of k values'), values', parts') /\
        off' <= last_id < off' + length (values_of k values') /\
        Forall (good k) parts' /\
        nth_error (values_of k values') (last_id - off') = Some r /\
        rs = skipn (S last_id - off') (values_of k values') ++ concat (map (values_of k) parts')
  end.
Proof.
  induction parts as [|c parts IH]; intros off size values G E O; cbn [next_parts].
  - destruct (Nat.leb_spec (off + size) last_id) as [H|H].
    + rewrite skipn_all2 by lia. reflexivity.
    + destruct (nth_error (values_of k values) (last_id - off)) as [r|] eqn:Er.
      2: { apply nth_error_None in Er. lia. }
      destruct (nth_error_split _ _ Er) as (l1 & l2 & El & Hl).
      replace (S last_id - off) with (S (last_id - off)) by lia.
      assert (Es : skipn (last_id - off) (values_of k values) = r :: l2).
      { rewrite El, <- Hl, skipn_app, Nat.sub_diag, skipn_all2 by lia. reflexivity. }
      rewrite Es. cbn [app]. exists off, values, []. rewrite E. repeat split; auto; try lia.
      replace (S last_id - off) with (S (last_id - off)) by lia. f_equal.
      rewrite El, <- Hl, skipn_app, skipn_all2 by lia. now replace (S (length l1) - length l1) with 1 by lia.
  - inversion G as [|? ? Gc Gp]; subst.
    destruct (Nat.leb_spec (off + length (values_of k values)) last_id) as [H|H].
    + rewrite skipn_all2 by lia. apply good_size in Gc. rewrite Gc. cbn [rbind app].
      cbn [map concat].
      specialize (IH (off + length (values_of k values)) (length (values_of k c)) c Gp eq_refl ltac:(lia)).
      replace (last_id - (off + length (values_of k values))) with 0 in IH by lia. exact IH.
    + destruct (nth_error (values_of k values) (last_id - off)) as [r|] eqn:Er.
      2: { apply nth_error_None in Er. lia. }
      destruct (nth_error_split _ _ Er) as (l1 & l2 & El & Hl).
      assert (Es : skipn (last_id - off) (values_of k values) = r :: l2).
      { rewrite El, <- Hl, skipn_app, Nat.sub_diag, skipn_all2 by lia. reflexivity. }
      rewrite Es. cbn [app]. exists off, values, (c :: parts). repeat split; auto; try lia.
      replace (S last_id - off) with (S (last_id - off)) by lia. f_equal.
      rewrite El, <- Hl, skipn_app, skipn_all2 by lia. now replace (S (length l1) - length l1) with 1 by lia.
Qed.

Definition put (k : kind) (cur : nat) (v : cval k) (b : builder) : builder :=
  let b' := insert cur (Some (val k v)) b in mkBuilder (b_items b') (b_ids b' ++ alloc_ids k v).
Lemma builder_eta b : mkBuilder (b_items b) (b_ids b ++ []) = b.
Proof. destruct b; cbn. now rewrite app_nil_r. Qed.

Lemma of_raw_cases k r last : (exists v last', of_raw k r last = Ok (v, last')) \/ of_raw k r last = Err.
Proof.
  destruct k; cbn in r |- *; eauto.
  - destruct r as [hi lo]. eauto.
  - destruct r.
  - destruct r.
  - destruct (dtype_from_id r); eauto.
Qed.

Lemma take_spec k cur st : pinv k st ->
  match pull k (src_of k st) with
  | Some (v, s') =>
      exists st', take_value k cur st = Ok st' /\ pinv k st' /\ src_of k st' = s' /\
        p_builder st' = put k cur v (p_builder st) /\ p_next st' = p_next st
  | None => take_value k cur st = Err
  end.
Proof.
  intros [H1 H2 H3].
  destruct (match k with KUnit | KExprQuote => true | _ => false end) eqn:K.
  - destruct k; try discriminate; cbn.
    + eexists. repeat split; cbn; auto; try lia. unfold put. cbn [alloc_ids]. now rewrite builder_eta.
    + destruct (p_inputs st) as [|[e|c|] r]; auto.
      eexists. repeat split; cbn; auto; try lia. unfold put. cbn [alloc_ids]. now rewrite builder_eta.
  - pose proof (next_parts_spec k (p_last_id st) (p_parts st) (p_offset st) (p_size st) (p_values st) H3 H1 H2) as SP.
    destruct (skipn (p_last_id st - p_offset st) (values_of k (p_values st)) ++
              concat (map (values_of k) (p_parts st))) as [|r rs] eqn:E.
    + unfold src_of. rewrite E. unfold take_value. destruct k; try discriminate; cbn [pull]; rewrite SP; reflexivity.
    + destruct SP as (off & values & parts & SP & O & G & Er & Ers).
      assert (P : pull k (r :: rs, p_inputs st, p_last st) =
                  match of_raw k r (p_last st) with
                  | Ok (v, last') => Some (v, (rs, p_inputs st, last')) | _ => None end)
        by (destruct k; try discriminate; reflexivity).
      unfold src_of. rewrite E, P. clear P.
      assert (T : take_value k cur st =
        rbind (of_raw k r (p_last st)) (fun '(v, last) =>
          Ok (mkPt (put k cur v (p_builder st)) last (p_inputs st) (p_next st) (S (p_last_id st)) off
                (length (values_of k values)) values parts))).
      { unfold take_value. destruct k; try discriminate; rewrite SP; cbn [rbind]; rewrite Er;
          destruct (of_raw _ r (p_last st)) as [[v last]| |]; cbn [rbind]; try reflexivity;
          unfold put; cbn [alloc_ids]; now rewrite ?builder_eta. }
      rewrite T. destruct (of_raw_cases k r (p_last st)) as [(v & last' & Ev)|Ev]; rewrite Ev; cbn [rbind]; [|reflexivity].
      eexists. split; [reflexivity|]. repeat split; cbn; auto; try lia. now rewrite Ers.
Qed.

(** The loop over the types buffer, on the source *)
Fixpoint aloop (k : kind) (types : list N) (cur : nat) (b : builder) (next : nat) (s : src k)
  : option (builder * nat * src k) :=
  match types with
  | [] => Some (b, next, s)
  | t :: r =>
      if (t =? kUnset)%N then aloop k r (S cur) b next s
      else if (t =? kRemoved)%N then aloop k r (S cur) (insert cur None b) next s
      else if negb (valid_idx t) then None
      else if negb (t =? scalar_type_id k)%N then aloop k r (S cur) b (Nat.min next cur) s
      else match pull k s with
           | Some (v, s') => aloop k r (S cur) (put k cur v b) next s'
           | None => None
           end
  end.
Lemma process_loop_spec k types : forall cur st, pinv k st ->
  match aloop k types cur (p_builder st) (p_next st) (src_of k st) with
  | Some (b, next, s) =>
      exists st', process_loop k types cur st = Ok st' /\ pinv k st' /\
        p_builder st' = b /\ p_next st' = next /\ src_of k st' = s
  | None => process_loop k types cur st = Err
  end.
Proof.
  induction types as [|t r IH]; intros cur st Hi; cbn [aloop process_loop].
  - exists st. auto.
  - destruct (t =? kUnset)%N; [apply IH; auto|].
    destruct (t =? kRemoved)%N.
    { match goal with |- context [process_loop k r (S cur) ?x] => apply (IH (S cur) x) end.
      destruct Hi; split; auto. }
    destruct (negb (valid_idx t)); [reflexivity|].
    destruct (negb (t =? scalar_type_id k)%N).
    { match goal with |- context [process_loop k r (S cur) ?x] => apply (IH (S cur) x) end.
      destruct Hi; split; auto. }
    pose proof (take_spec k cur st Hi) as T.
    destruct (pull k (src_of k st)) as [[v s']|] eqn:P.
    + destruct T as (st' & T & Hi' & Es & Eb & En). rewrite T. cbn [rbind].
      rewrite <- Es, <- Eb, <- En. now apply IH.
    + rewrite T. reflexivity.
Qed.

Lemma remaining_spec k parts : forall off size, Forall (good k) parts ->
  exists off' size', remaining_parts k parts off size = Ok (off', size') /\
    off' + size' = off + size + length (concat (map (values_of k) parts)).
Proof.
  induction parts as [|c r IH]; intros off size G; cbn.
  - exists off, size. split; auto; lia.
  - inversion G as [|? ? Gc Gp]; subst. apply good_size in Gc. rewrite Gc. cbn [rbind].
    destruct (IH (off + size) (length (values_of k c)) Gp) as (o & s & E & H).
    exists o, s. split; [exact E|]. rewrite app_length. lia.
Qed.

Definition initial (k : kind) (p : compact) (parts : list compact) (ins : list input) (last : ObjectId) : src k :=
  (concat (map (values_of k) (p :: parts)), ins, last).
Definition consumed (k : kind) (s : src k) : bool :=
  (match fst (fst s) with [] => true | _ => false end) &&
  (match k with KExprQuote => match snd (fst s) with [] => true | _ => false end | _ => true end).
Lemma process_type_good p parts k start b last ins : Forall (good k) (p :: parts) ->
  process_type p parts k start b last ins =
  match aloop k (skipn start (types_buffer p)) start b (length (types_buffer p)) (initial k p parts ins last) with
  | Some (b', next, s) => if consumed k s then Ok (b', snd s, snd (fst s), next) else Err
  | None => Err
  end.
Proof.
  intros G. inversion G as [|? ? Gc Gp]; subst. apply good_size in Gc.
  unfold process_type. rewrite Gc. cbn [rbind].
  set (st := mkPt b last ins (length (types_buffer p)) 0 0 (length (values_of k p)) p parts).
  assert (Hi : pinv k st) by (split; cbn; auto; lia).
  pose proof (process_loop_spec k (skipn start (types_buffer p)) start st Hi) as H.
  assert (Es : src_of k st = initial k p parts ins last) by reflexivity.
  rewrite Es in H. cbn [p_builder p_next st] in H.
  destruct (aloop _ _ _ _ _ _) as [[[b' next] s]|].
  - destruct H as (st' & H & Hi' & <- & <- & <-). rewrite H. cbn [rbind].
    destruct Hi' as [I1 I2 I3]. destruct (remaining_spec k (p_parts st') (p_offset st') (p_size st') I3) as (o & sz & R & Eo).
    rewrite R. cbn [rbind]. unfold consumed, src_of. cbn [fst snd].
    assert (L : length (skipn (p_last_id st' - p_offset st') (values_of k (p_values st')) ++
                  concat (map (values_of k) (p_parts st'))) = o + sz - p_last_id st')
      by (rewrite app_length, skipn_length; lia).
    destruct (skipn _ _ ++ concat _) as [|r rs]; cbn [length] in L.
    + replace (p_last_id st' =? o + sz) with true by (symmetry; apply Nat.eqb_eq; lia). cbn [negb orb andb].
      destruct k; auto. now destruct (p_inputs st').
    + replace (p_last_id st' =? o + sz) with false by (symmetry; apply Nat.eqb_neq; lia). reflexivity.
  - rewrite H. reflexivity.
Qed.

(** Without any assumption: no read outside of an array, and success means that all
    the parts are well formed *)
Lemma next_parts_safe k f parts : forall off size values,
  size = length (values_of k values) ->
  match next_parts k f parts off size values with
  | Ok (off', size', values', parts') =>
      f off' size' = false /\ size' = length (values_of k values') /\
      (Forall (good k) parts' -> Forall (good k) parts) /\
      (off' = off \/ exists o s, f o s = true /\ o + s = off')
  | Err => True
  | Crash => False
  end.
Proof.
  induction parts as [|c r IH]; intros off size values E; cbn [next_parts].
  - destruct (f off size) eqn:F; auto.
  - destruct (f off size) eqn:F; [|auto].
    destruct (size_cases k c) as [C|[C _]]; rewrite C; cbn [rbind]; auto.
    specialize (IH (off + size) (length (values_of k c)) c eq_refl).
    destruct (next_parts k f r (off + size) (length (values_of k c)) c) as [[[[o s] v] ps]| |]; auto.
    destruct IH as (I1 & I2 & I3 & I4). repeat split; auto.
    + intros G. constructor; auto. now apply good_size.
    + right. destruct I4 as [->|I4]; eauto.
Qed.
Definition psafe (k : kind) (st : pt) : Prop :=
  p_size st = length (values_of k (p_values st)) /\ p_offset st <= p_last_id st.
Lemma take_safe k cur st : psafe k st ->
  match take_value k cur st with
  | Ok st' => psafe k st' /\ (Forall (good k) (p_parts st') -> Forall (good k) (p_parts st))
  | Err => True
  | Crash => False
  end.
Proof.
  intros [H1 H2].
  destruct (match k with KUnit | KExprQuote => true | _ => false end) eqn:K.
  - destruct k; try discriminate; cbn.
    + repeat split; auto.
    + destruct (p_inputs st) as [|[e|c|] r]; cbn; auto. repeat split; auto.
  - pose proof (next_parts_safe k (fun o s => o + s <=? p_last_id st) (p_parts st) (p_offset st) (p_size st) (p_values st) H1) as SP.
    assert (T : take_value k cur st =
      rbind (next_parts k (fun offset size => offset + size <=? p_last_id st) (p_parts st)
               (p_offset st) (p_size st) (p_values st)) (fun '(offset, size, values, parts) =>
      match nth_error (values_of k values) (p_last_id st - offset) with
      | None => Crash
      | Some r =>
          rbind (of_raw k r (p_last st)) (fun '(v, last) =>
          Ok (mkPt (put k cur v (p_builder st)) last (p_inputs st) (p_next st) (S (p_last_id st)) offset size values parts))
      end)).
    { unfold take_value. destruct k; try discriminate;
        destruct (next_parts _ _ _ _ _ _) as [[[[o s] v] ps]| |]; cbn [rbind]; auto;
        destruct (nth_error _ _) as [r|]; auto; destruct (of_raw _ r (p_last st)) as [[w last]| |]; cbn [rbind]; auto;
        unfold put; cbn [alloc_ids]; now rewrite ?builder_eta. }
    rewrite T. clear T.
    destruct (next_parts _ _ _ _ _ _) as [[[[o s] v] ps]| |]; cbn [rbind]; auto.
    destruct SP as (S1 & S2 & S3 & S4). apply Nat.leb_gt in S1.
    assert (O : o <= p_last_id st).
    { destruct S4 as [->|(o' & s' & F & <-)]; auto. now apply Nat.leb_le in F. }
    destruct (nth_error (values_of k v) (p_last_id st - o)) as [r|] eqn:Er.
    2: { apply nth_error_None in Er. lia. }
    destruct (of_raw_cases k r (p_last st)) as [(w & last & ->)| ->]; cbn [rbind]; auto.
    repeat split; cbn; auto; lia.
Qed.
Lemma process_loop_safe k types : forall cur st, psafe k st ->
  match process_loop k types cur st with
  | Ok st' => psafe k st' /\ (Forall (good k) (p_parts st') -> Forall (good k) (p_parts st))
  | Err => True
  | Crash => False
  end.
Proof.
  induction types as [|t r IH]; intros cur st Hi; cbn [process_loop]; auto.
  destruct (t =? kUnset)%N; [apply IH; auto|].
  destruct (t =? kRemoved)%N.
  { match goal with |- context [process_loop k r (S cur) ?x] => apply (IH (S cur) x) end. exact Hi. }
  destruct (negb (valid_idx t)); auto.
  destruct (negb (t =? scalar_type_id k)%N).
  { match goal with |- context [process_loop k r (S cur) ?x] => apply (IH (S cur) x) end. exact Hi. }
  pose proof (take_safe k cur st Hi) as T.
  destruct (take_value k cur st) as [st'| |]; cbn [rbind]; auto.
  destruct T as [Hi' T]. specialize (IH (S cur) st' Hi').
  destruct (process_loop k r (S cur) st') as [st''| |]; auto. tauto.
Qed.
Lemma remaining_safe k parts : forall off size,
  match remaining_parts k parts off size with
  | Ok _ => Forall (good k) parts
  | Err => True
  | Crash => False
  end.
Proof.
  induction parts as [|c r IH]; intros off size; cbn; auto.
  destruct (size_cases k c) as [C|[C _]]; rewrite C; cbn [rbind]; auto.
  specialize (IH (off + size) (length (values_of k c))).
  destruct (remaining_parts _ _ _ _); auto. constructor; auto. now apply good_size.
Qed.
Lemma process_type_safe p parts k start b last ins :
  match process_type p parts k start b last ins with
  | Ok _ => Forall (good k) (p :: parts)
  | Err => True
  | Crash => False
  end.
Proof.
  unfold process_type. destruct (size_cases k p) as [C|[C _]]; rewrite C; cbn [rbind]; auto.
  set (st := mkPt b last ins (length (types_buffer p)) 0 0 (length (values_of k p)) p parts).
  assert (Hi : psafe k st) by (split; cbn; auto).
  pose proof (process_loop_safe k (skipn start (types_buffer p)) start st Hi) as S.
  destruct (process_loop _ _ _ _) as [st'| |]; cbn [rbind]; auto. destruct S as [_ S].
  pose proof (remaining_safe k (p_parts st') (p_offset st') (p_size st')) as R.
  destruct (remaining_parts _ _ _ _) as [[o s]| |]; cbn [rbind]; auto.
  destruct (_ || _); auto. constructor; [now apply good_size|]. now apply S.
Qed.

Inductive pulls (k : kind) : src k -> list (cval k) -> src k -> Prop :=
  | pulls_nil s : pulls k s [] s
  | pulls_cons s v s' vs s'' : pull k s = Some (v, s') -> pulls k s' vs s'' -> pulls k s (v :: vs) s''.

(** What the loop does to the slots of the rest of the types buffer *)
Fixpoint fill (k : kind) (types : list N) (xs : list slot) (vs : list value) : option (list slot) :=
  match types, xs with
  | [], [] => match vs with [] => Some [] | _ :: _ => None end
  | t :: ts, x :: xs =>
      if (t =? 255)%N then option_map (cons x) (fill k ts xs vs)
      else if (t =? 254)%N then option_map (cons (upd None x)) (fill k ts xs vs)
      else if negb (valid_idx t) then None
      else if negb (t =? field_number k)%N then option_map (cons x) (fill k ts xs vs)
      else match vs with
           | v :: vs => option_map (cons (upd (Some v) x)) (fill k ts xs vs)
           | [] => None
           end
  | _, _ => None
  end.
Fixpoint nextp (k : kind) (types : list N) (cur next : nat) : nat :=
  match types with
  | [] => next
  | t :: r =>
      if ((t =? 255) || (t =? 254) || (t =? field_number k))%N then nextp k r (S cur) next
      else nextp k r (S cur) (Nat.min next cur)
  end.

Lemma put_app k pre x suf ids v :
  put k (length pre) v (mkBuilder (pre ++ x :: suf) ids) =
  mkBuilder (pre ++ upd (Some (val k v)) x :: suf) (ids ++ alloc_ids k v).
Proof. unfold put. now rewrite insert_app. Qed.
Lemma app_cons_assoc {A} (pre : list A) x suf : pre ++ x :: suf = (pre ++ [x]) ++ suf.
Proof. now rewrite <- app_assoc. Qed.
Lemma len_snoc {A} (pre : list A) x : S (length pre) = length (pre ++ [x]).
Proof. rewrite app_length. cbn. lia. Qed.

Lemma aloop_fill k types : forall pre xs ids next s b' next' s',
  length xs = length types ->
  aloop k types (length pre) (mkBuilder (pre ++ xs) ids) next s = Some (b', next', s') ->
  exists vs xs', pulls k s vs s' /\ fill k types xs (map (val k) vs) = Some xs' /\
    b' = mkBuilder (pre ++ xs') (ids ++ flat_map (alloc_ids k) vs) /\
    next' = nextp k types (length pre) next.
Proof.
  induction types as [|t r IH]; intros pre xs ids next s b' next' s' L E; destruct xs as [|x xs]; try discriminate.
  - cbn in E. exists [], []. cbn. rewrite !app_nil_r in *. inversion E; subst.
    repeat split; auto. constructor.
  - cbn [aloop] in E. cbn [fill nextp]. injection L as L. rewrite field_scalar in E.
    change kUnset with 255%N in E. change kRemoved with 254%N in E.
    destruct (t =? 255)%N; [|destruct (t =? 254)%N].
    + rewrite app_cons_assoc, (len_snoc pre x) in E.
      destruct (IH (pre ++ [x]) xs ids next s b' next' s' L E) as (vs & xs' & P & F & -> & ->).
      exists vs, (x :: xs'). rewrite F. cbn [option_map orb]. rewrite (app_cons_assoc pre x xs'), (len_snoc pre x). auto.
    + rewrite insert_app, app_cons_assoc, (len_snoc pre (upd None x)) in E.
      destruct (IH (pre ++ [upd None x]) xs ids next s b' next' s' L E) as (vs & xs' & P & F & -> & ->).
      exists vs, (upd None x :: xs'). rewrite F. cbn [option_map orb].
      rewrite (app_cons_assoc pre (upd None x) xs'), (len_snoc pre (upd None x)). auto.
    + destruct (valid_idx t); [|discriminate]. cbn [negb orb] in *.
      destruct (t =? field_number k)%N; cbn [negb orb] in *.
      * destruct (pull k s) as [[v s1]|] eqn:Ep; [|discriminate].
        rewrite put_app, app_cons_assoc, (len_snoc pre (upd (Some (val k v)) x)) in E.
        destruct (IH (pre ++ [upd (Some (val k v)) x]) xs (ids ++ alloc_ids k v) next s1 b' next' s' L E) as (vs & xs' & P & F & -> & ->).
        exists (v :: vs), (upd (Some (val k v)) x :: xs'). cbn [map flat_map]. rewrite F. cbn [option_map].
        rewrite (app_cons_assoc pre _ xs'), (len_snoc pre (upd (Some (val k v)) x)), app_assoc.
        repeat split; auto. econstructor; eauto.
      * rewrite app_cons_assoc, (len_snoc pre x) in E.
        destruct (IH (pre ++ [x]) xs ids _ s b' next' s' L E) as (vs & xs' & P & F & -> & ->).
        exists vs, (x :: xs'). rewrite F. cbn [option_map]. rewrite (app_cons_assoc pre x xs'), <- (len_snoc pre x). auto.
Qed.
Definition good_byte (t : N) : Prop := t = 255%N \/ t = 254%N \/ exists k, t = field_number k.
Definition count (t : N) (types : list N) : nat := count_occ N.eq_dec types t.
Lemma aloop_runs k types : forall pre xs ids next s vs s',
  length xs = length types -> Forall good_byte types ->
  pulls k s vs s' -> length vs = count (field_number k) types ->
  exists b' next', aloop k types (length pre) (mkBuilder (pre ++ xs) ids) next s = Some (b', next', s').
Proof.
  induction types as [|t r IH]; intros pre xs ids next s vs s' L G P C; destruct xs as [|x xs]; try discriminate.
  - unfold count in C; cbn in C. destruct vs; [|discriminate]. inversion P; subst. cbn. eauto.
  - cbn [aloop]. injection L as L. inversion G as [|? ? Gt Gr]; subst. rewrite field_scalar.
    change kUnset with 255%N. change kRemoved with 254%N.
    unfold count in *. cbn [count_occ] in C. pose proof (field_small k) as FS.
    destruct (N.eqb_spec t 255); [|destruct (N.eqb_spec t 254)].
    + destruct (N.eq_dec t (field_number k)); [lia|].
      rewrite app_cons_assoc, (len_snoc pre x). apply (IH (pre ++ [x]) xs ids next s vs s'); auto.
    + destruct (N.eq_dec t (field_number k)); [lia|].
      rewrite insert_app, app_cons_assoc, (len_snoc pre (upd None x)).
      apply (IH (pre ++ [upd None x]) xs ids next s vs s'); auto.
    + destruct Gt as [|[|[k' ->]]]; try congruence. rewrite valid_field. cbn [negb].
      destruct (N.eqb_spec (field_number k') (field_number k)) as [Ek|Ek]; cbn [negb].
      * destruct (N.eq_dec (field_number k') (field_number k)); [|contradiction].
        destruct vs as [|v vs]; [discriminate|]. injection C as C. inversion P; subst.
        match goal with H : pull k s = _ |- _ => rewrite H end.
        rewrite put_app, app_cons_assoc, (len_snoc pre (upd (Some (val k v)) x)).
        eapply (IH (pre ++ [upd (Some (val k v)) x]) xs); eauto.
      * destruct (N.eq_dec (field_number k') (field_number k)); [contradiction|].
        rewrite app_cons_assoc, (len_snoc pre x). apply (IH (pre ++ [x]) xs ids _ s vs s'); auto.
Qed.

Lemma nextp_le k types : forall cur next, nextp k types cur next <= next.
Proof.
  induction types as [|t r IH]; intros cur next; cbn; auto.
  destruct (_ || _ || _); auto. etransitivity; [apply IH|]. lia.
Qed.
Lemma nextp_ge k types : forall cur next, Nat.min cur next <= nextp k types cur next.
Proof.
  induction types as [|t r IH]; intros cur next; cbn; [lia|].
  destruct (_ || _ || _).
  - specialize (IH (S cur) next). lia.
  - specialize (IH (S cur) (Nat.min next cur)). lia.
Qed.
Lemma nextp_between k types : forall cur next j t,
  nth_error types j = Some t -> cur + j < nextp k types cur next ->
  t = 255%N \/ t = 254%N \/ t = field_number k.
Proof.
  induction types as [|t0 r IH]; intros cur next j t Hj Hn; [destruct j; discriminate|].
  cbn [nextp] in Hn. destruct j as [|j].
  - injection Hj as ->.
    destruct ((t =? 255) || (t =? 254) || (t =? field_number k))%N eqn:E.
    + apply orb_true_iff in E. destruct E as [E|E]; [apply orb_true_iff in E; destruct E as [E|E]|];
        apply N.eqb_eq in E; auto.
    + pose proof (nextp_le k r (S cur) (Nat.min next cur)). lia.
  - rewrite <- Nat.add_succ_comm in Hn. destruct (_ || _ || _); eapply IH; eauto.
Qed.
Lemma nextp_start k r cur next : cur < next -> cur < nextp k (field_number k :: r) cur next.
Proof.
  intros H. cbn [nextp]. rewrite N.eqb_refl, !orb_true_r.
  pose proof (nextp_ge k r (S cur) next). lia.
Qed.

(** ** What [fill] does *)

Definition sel (t0 : N) (types : list N) (xs : list slot) : list slot :=
  map snd (filter (fun p => fst p =? t0)%N (combine types xs)).
Lemma sel_cons t0 t ts x xs :
  sel t0 (t :: ts) (x :: xs) = if (t =? t0)%N then x :: sel t0 ts xs else sel t0 ts xs.
Proof. unfold sel. cbn. now destruct (t =? t0)%N. Qed.
Lemma sel_app t0 ts ts' xs xs' : length ts = length xs ->
  sel t0 (ts ++ ts') (xs ++ xs') = sel t0 ts xs ++ sel t0 ts' xs'.
Proof.
  revert xs. induction ts as [|t ts IH]; intros [|x xs] L; try discriminate; auto.
  cbn [app]. rewrite !sel_cons. injection L as L. rewrite IH by auto. now destruct (t =? t0)%N.
Qed.
Lemma sel_length t0 ts : forall xs, length ts = length xs -> length (sel t0 ts xs) = count t0 ts.
Proof.
  induction ts as [|t ts IH]; intros [|x xs] L; try discriminate; auto.
  injection L as L. rewrite sel_cons. unfold count in *. cbn [count_occ].
  destruct (N.eqb_spec t t0), (N.eq_dec t t0); try congruence; cbn; auto.
Qed.

Definition some_some (v : value) : slot := Some (Some v).
Lemma fill_length k types : forall xs vs xs', fill k types xs vs = Some xs' ->
  length xs' = length types.
Proof.
  induction types as [|t r IH]; intros [|x xs] vs xs' E; cbn [fill] in E; try discriminate.
  - destruct vs; now inversion E.
  - assert (A : forall y vs, option_map (cons y) (fill k r xs vs) = Some xs' -> length xs' = length (t :: r)).
    { intros y vs' E'. destruct (fill k r xs vs') eqn:F; [|discriminate].
      cbn in E'. inversion E'; subst. cbn. f_equal. eauto. }
    repeat match type of E with context [if ?c then _ else _] => destruct c end; eauto; try discriminate.
    destruct vs; eauto; discriminate.
Qed.
Lemma fill_points k types : forall xs vs xs' j t x, fill k types xs vs = Some xs' ->
  nth_error types j = Some t -> nth_error xs j = Some x ->
  good_byte t /\
  (t = 255%N -> nth_error xs' j = Some x) /\
  (t = 254%N -> nth_error xs' j = Some (upd None x)).
Proof.
  induction types as [|t0 r IH]; intros [|x0 xs] vs xs' j t x E Ht Hx; cbn [fill] in E; try discriminate.
  - destruct j; discriminate.
  - assert (A : forall y vs, option_map (cons y) (fill k r xs vs) = Some xs' ->
        (j = 0 -> good_byte t /\ (t = 255%N -> y = x) /\ (t = 254%N -> y = upd None x)) ->
        good_byte t /\ (t = 255%N -> nth_error xs' j = Some x) /\ (t = 254%N -> nth_error xs' j = Some (upd None x))).
    { intros y vs' E' H0. destruct (fill k r xs vs') eqn:F; [|discriminate].
      cbn in E'. inversion E'; subst. destruct j as [|j]; cbn [nth_error] in *.
      - destruct (H0 eq_refl) as (H1 & H2 & H3). split; auto. split; intros; f_equal; auto.
      - eapply IH; eauto. }
    destruct (N.eqb_spec t0 255); [|destruct (N.eqb_spec t0 254); [|destruct (valid_idx t0) eqn:V]]; cbn [negb] in E.
    + eapply A; eauto. intros ->. cbn in Ht, Hx. unfold good_byte. subst t0.
      assert (t = 255%N) by congruence. assert (x0 = x) by congruence. subst. split; auto. split; auto. discriminate.
    + eapply A; eauto. intros ->. cbn in Ht, Hx. unfold good_byte. subst t0.
      assert (t = 254%N) by congruence. assert (x0 = x) by congruence. subst. split; auto. split; auto. discriminate.
    + assert (Z : forall y, j = 0 -> good_byte t /\ (t = 255%N -> y = x) /\ (t = 254%N -> y = upd None x)).
      { intros y ->. cbn in Ht. assert (t = t0) by congruence. subst t.
        split; [right; right; now apply valid_idx_field|]. split; congruence. }
      destruct (t0 =? field_number k)%N; cbn [negb] in E; [destruct vs; [discriminate|]|]; eapply A; eauto.
    + discriminate.
Qed.
Lemma fill_sel k types : forall xs vs xs', fill k types xs vs = Some xs' ->
  (forall t, t <> 254%N -> t <> field_number k -> sel t types xs' = sel t types xs) /\
  (Forall (eq None) (sel (field_number k) types xs) ->
   sel (field_number k) types xs' = map some_some vs).
Proof.
  pose proof (field_small k) as FS.
  induction types as [|t0 r IH]; intros [|x0 xs] vs xs' E; cbn [fill] in E; try discriminate.
  - destruct vs; [|discriminate]. inversion E; subst. split; auto.
  - assert (A : forall y vs, option_map (cons y) (fill k r xs vs) = Some xs' ->
       exists ys, xs' = y :: ys /\ fill k r xs vs = Some ys).
    { intros y vs' E'. destruct (fill k r xs vs') eqn:F; [|discriminate]. cbn in E'. inversion E'; eauto. }
    destruct (N.eqb_spec t0 255); [|destruct (N.eqb_spec t0 254); [|destruct (valid_idx t0) eqn:V]]; cbn [negb] in E.
    + apply A in E. destruct E as (ys & -> & E). destruct (IH _ _ _ E) as [I1 I2]. split.
      * intros t N1 N2. rewrite !sel_cons. rewrite (I1 t) by auto. reflexivity.
      * rewrite !sel_cons. replace (t0 =? field_number k)%N with false by (symmetry; apply N.eqb_neq; lia). exact I2.
    + apply A in E. destruct E as (ys & -> & E). destruct (IH _ _ _ E) as [I1 I2]. split.
      * intros t N1 N2. rewrite !sel_cons. rewrite (I1 t) by auto.
        destruct (N.eqb_spec t0 t); [congruence|reflexivity].
      * rewrite !sel_cons. replace (t0 =? field_number k)%N with false by (symmetry; apply N.eqb_neq; lia). exact I2.
    + destruct (N.eqb_spec t0 (field_number k)); cbn [negb] in E.
      * destruct vs as [|v vs]; [discriminate|].
        apply A in E. destruct E as (ys & -> & E). destruct (IH _ _ _ E) as [I1 I2]. split.
        -- intros t N1 N2. rewrite !sel_cons. rewrite (I1 t) by auto.
           destruct (N.eqb_spec t0 t); [congruence|reflexivity].
        -- rewrite !sel_cons. subst t0. rewrite N.eqb_refl. intros F. inversion F; subst.
           cbn [upd map]. now rewrite I2.
      * apply A in E. destruct E as (ys & -> & E). destruct (IH _ _ _ E) as [I1 I2]. split.
        -- intros t N1 N2. rewrite !sel_cons. now rewrite (I1 t) by auto.
        -- rewrite !sel_cons. destruct (N.eqb_spec t0 (field_number k)); [congruence|exact I2].
    + discriminate.
Qed.

Lemma firstn_len_pre {A} (pre xs : list A) : firstn (length pre) (pre ++ xs) = pre.
Proof. now rewrite firstn_app, Nat.sub_diag, firstn_all, app_nil_r. Qed.
Lemma process_type_ok p parts k pre xs ids last ins r :
  length (pre ++ xs) = length (types_buffer p) ->
  process_type p parts k (length pre) (mkBuilder (pre ++ xs) ids) last ins = Ok r ->
  Forall (good k) (p :: parts) /\
  exists vs s' xs', pulls k (initial k p parts ins last) vs s' /\ consumed k s' = true /\
    fill k (skipn (length pre) (types_buffer p)) xs (map (val k) vs) = Some xs' /\
    r = (mkBuilder (pre ++ xs') (ids ++ flat_map (alloc_ids k) vs), snd s', snd (fst s'),
         nextp k (skipn (length pre) (types_buffer p)) (length pre) (length (types_buffer p))).
Proof.
  intros L E.
  pose proof (process_type_safe p parts k (length pre) (mkBuilder (pre ++ xs) ids) last ins) as G.
  rewrite E in G. split; auto. rewrite process_type_good in E by auto.
  destruct (aloop _ _ _ _ _ _) as [[[b' next'] s']|] eqn:Ea; [|discriminate].
  apply aloop_fill in Ea; [|rewrite skipn_length; rewrite app_length in L; lia].
  destruct Ea as (vs & xs' & P & F & -> & ->).
  destruct (consumed k s') eqn:C; [|discriminate]. exists vs, s', xs'. repeat split; auto. congruence.
Qed.
Lemma process_type_runs p parts k pre xs ids last ins vs s' :
  length (pre ++ xs) = length (types_buffer p) ->
  Forall (good k) (p :: parts) -> Forall good_byte (types_buffer p) ->
  pulls k (initial k p parts ins last) vs s' -> consumed k s' = true ->
  length vs = count (field_number k) (skipn (length pre) (types_buffer p)) ->
  exists r, process_type p parts k (length pre) (mkBuilder (pre ++ xs) ids) last ins = Ok r.
Proof.
  intros L G B P C N. rewrite process_type_good by auto.
  destruct (aloop_runs k (skipn (length pre) (types_buffer p)) pre xs ids (length (types_buffer p))
              (initial k p parts ins last) vs s') as (b' & next' & E); auto.
  - rewrite skipn_length. rewrite app_length in L. lia.
  - rewrite <- (firstn_skipn (length pre) (types_buffer p)) in B. apply Forall_app in B. tauto.
  - rewrite E, C. eauto.
Qed.

Lemma pull_indep k rs ins last v rs' ins' last' ins2 last2 :
  pull k (rs, ins, last) = Some (v, (rs', ins', last')) ->
  (k = KExprQuote -> ins2 = ins) -> (k = KObjectId -> last2 = last) ->
  exists ins2' last2', pull k (rs, ins2, last2) = Some (v, (rs', ins2', last2')) /\
    (k = KExprQuote -> ins2' = ins') /\ (k = KObjectId -> last2' = last') /\
    (k <> KExprQuote -> ins' = ins /\ ins2' = ins2) /\ (k <> KObjectId -> last' = last /\ last2' = last2).
Proof.
  intros E H1 H2. destruct k; cbn [pull] in *;
    try (rewrite H2 by reflexivity); try (rewrite H1 by reflexivity).
  all: try (destruct rs as [|r rs]; [discriminate|]; cbn [of_raw] in *; inversion E; subst; do 2 eexists;
            split; [reflexivity|]; repeat split; congruence).
  - destruct rs as [|[hi lo] rs]; [discriminate|]. cbn [of_raw] in *. inversion E; subst.
    do 2 eexists. split; [reflexivity|]. repeat split; congruence.
  - inversion E; subst. do 2 eexists. split; [reflexivity|]. repeat split; congruence.
  - destruct ins as [|[e|c|] r]; try discriminate. inversion E; subst.
    do 2 eexists. split; [reflexivity|]. repeat split; congruence.
  - destruct rs as [|r rs]; [discriminate|]. cbn [of_raw] in *.
    destruct (dtype_from_id r); [|discriminate]. inversion E; subst.
    do 2 eexists. split; [reflexivity|]. repeat split; congruence.
Qed.
Lemma pulls_indep k s vs s' : pulls k s vs s' -> forall ins2 last2,
  (k = KExprQuote -> ins2 = snd (fst s)) -> (k = KObjectId -> last2 = snd s) ->
  exists ins2' last2', pulls k (fst (fst s), ins2, last2) vs (fst (fst s'), ins2', last2') /\
    (k = KExprQuote -> ins2' = snd (fst s')) /\ (k = KObjectId -> last2' = snd s') /\
    (k <> KExprQuote -> snd (fst s') = snd (fst s) /\ ins2' = ins2) /\
    (k <> KObjectId -> snd s' = snd s /\ last2' = last2).
Proof.
  induction 1 as [s|s v s1 vs s2 P H IH]; intros ins2 last2 H1 H2.
  - exists ins2, last2. split; [constructor|]. auto.
  - destruct s as [[rs ins] last], s1 as [[rs1 ins1] last1]. cbn [fst snd] in *.
    destruct (pull_indep k rs ins last v rs1 ins1 last1 ins2 last2 P H1 H2) as (i' & l' & P' & A & B & C & D).
    destruct (IH i' l' A B) as (i'' & l'' & P'' & A' & B' & C' & D').
    exists i'', l''. split; [econstructor; eauto|]. repeat split; auto.
    + destruct (C' H0), (C H0). congruence.
    + destruct (C' H0), (C H0). congruence.
    + destruct (D' H0), (D H0). congruence.
    + destruct (D' H0), (D H0). congruence.
Qed.

(** ** All the types *)

Section Loop.
Variables (p : compact) (parts : list compact) (ins0 : list input).
Let T := types_buffer p.
Definition zero : ObjectId := unsafe_create 0 0.
Definition all_values (k : kind) (vs : list (cval k)) : Prop :=
  exists s', pulls k (initial k p parts ins0 zero) vs s' /\ consumed k s' = true.

Record linv (i : nat) (seen : list kind) (b : builder) (last : ObjectId) (ins : list input) : Prop := {
  li_len : length (b_items b) = length T;
  li_unset : forall j, nth_error T j = Some 255%N -> nth_error (b_items b) j = Some None;
  li_removed : forall j, nth_error T j = Some 254%N ->
    nth_error (b_items b) j = Some (Some None) \/ i <= j /\ nth_error (b_items b) j = Some None;
  li_before : forall j t, j < i -> nth_error T j = Some t ->
    t = 255%N \/ t = 254%N \/ exists k, t = field_number k /\ In k seen;
  li_in : forall k, In k seen -> In (field_number k) T;
  li_vals : forall k, In k seen ->
    Forall (good k) (p :: parts) /\
    exists vs, all_values k vs /\ sel (field_number k) T (b_items b) = map some_some (map (val k) vs) /\
      (k = KObjectId -> b_ids b = flat_map (alloc_ids k) vs);
  li_none : forall k, ~ In k seen -> Forall (eq None) (sel (field_number k) T (b_items b));
  li_ids : ~ In KObjectId seen -> b_ids b = [];
  li_ins : ~ In KExprQuote seen -> ins = ins0;
  li_ins' : In KExprQuote seen -> ins = [];
  li_last : ~ In KObjectId seen -> last = zero
}.

Lemma seen_iff k seen :
  existsb (fun k' => scalar_type_id k' =? field_number k)%N seen = true <-> In k seen.
Proof.
  rewrite existsb_exists. split.
  - intros (k' & H & E). apply N.eqb_eq in E. rewrite field_scalar in E. apply field_inj in E. congruence.
  - intros H. exists k. split; auto. rewrite field_scalar. apply N.eqb_refl.
Qed.
Lemma linv_skip i seen b last ins t : linv i seen b last ins -> nth_error T i = Some t ->
  t = 255%N \/ (exists k, t = field_number k /\ In k seen) -> linv (S i) seen b last ins.
Proof.
  intros [] Ht C. pose proof field_small as FS. constructor; auto.
  - intros j Hj. destruct (li_removed0 j Hj) as [?|[? ?]]; auto.
    destruct (Nat.eq_dec i j) as [->|]; [|right; split; auto; lia].
    exfalso. destruct C as [->|(k & -> & _)]; [congruence|]. specialize (FS k).
    assert (field_number k = 254%N) by congruence. lia.
  - intros j t' L Hj. destruct (Nat.eq_dec i j) as [->|]; [|eapply li_before0; eauto; lia].
    assert (t' = t) by congruence. subst t'. destruct C as [|]; auto.
Qed.
Lemma set_nth_nth {A} (l : list A) : forall i x j,
  nth_error (set_nth i x l) j = if (i =? j) then option_map (fun _ => x) (nth_error l j) else nth_error l j.
Proof.
  induction l as [|y l IH]; intros [|i] x [|j]; cbn; auto.
  - now destruct (i =? j).
Qed.
Lemma set_nth_length {A} (l : list A) : forall i x, length (set_nth i x l) = length l.
Proof. induction l as [|y l IH]; intros [|i] x; cbn; auto. Qed.
Lemma sel_set_nth t0 t ts : forall xs i x, length ts = length xs -> nth_error ts i = Some t -> t <> t0 ->
  sel t0 ts (set_nth i x xs) = sel t0 ts xs.
Proof.
  induction ts as [|t1 ts IH]; intros [|x1 xs] [|i] x L E N1; try discriminate; cbn [set_nth]; rewrite !sel_cons.
  - injection E as ->. destruct (N.eqb_spec t t0); congruence.
  - injection L as L. now rewrite (IH xs i x L E N1).
Qed.
Lemma linv_removed i seen b last ins : linv i seen b last ins -> nth_error T i = Some 254%N ->
  linv (S i) seen (insert i None b) last ins.
Proof.
  intros [] Ht.
  assert (Hs : forall t0, t0 <> 254%N -> sel t0 T (b_items (insert i None b)) = sel t0 T (b_items b)).
  { intros t0 Nt. unfold insert. destruct (nth_error (b_items b) i) as [[|]|]; cbn [b_items]; auto.
    eapply sel_set_nth; eauto. }
  assert (Hk : forall k, field_number k <> 254%N) by (intros k; pose proof (field_small k); lia).
  assert (Hi : b_ids (insert i None b) = b_ids b)
    by (unfold insert; destruct (nth_error (b_items b) i) as [[|]|]; reflexivity).
  assert (Hp : forall j, j <> i -> nth_error (b_items (insert i None b)) j = nth_error (b_items b) j).
  { intros j Nj. unfold insert. destruct (nth_error (b_items b) i) as [[|]|]; cbn [b_items]; auto.
    rewrite set_nth_nth. destruct (Nat.eqb_spec i j); congruence. }
  assert (Hii : nth_error (b_items (insert i None b)) i = Some (Some None)).
  { unfold insert. destruct (li_removed0 i Ht) as [E|[_ E]]; rewrite E; auto. cbn [b_items].
    rewrite set_nth_nth, Nat.eqb_refl, E. reflexivity. }
  constructor; auto.
  - unfold insert. destruct (nth_error (b_items b) i) as [[|]|]; cbn [b_items]; auto.
    now rewrite set_nth_length.
  - intros j Hj. rewrite Hp by congruence. auto.
  - intros j Hj. destruct (Nat.eq_dec j i) as [->|N1]; [left; auto|]. rewrite Hp by auto.
    destruct (li_removed0 j Hj) as [|[? ?]]; auto. right. split; auto. lia.
  - intros j t L Hj. destruct (Nat.eq_dec j i) as [->|N1]; [right; left; congruence|]. eapply li_before0; eauto. lia.
  - intros k Hk'. destruct (li_vals0 k Hk') as (G & vs & A & B & C). split; auto. exists vs. rewrite Hs, Hi; auto.
  - intros k Hk'. rewrite Hs; auto.
  - intros H. rewrite Hi; auto.
Qed.
Lemma alloc_ids_other k vs : k <> KObjectId -> flat_map (alloc_ids k) vs = [].
Proof. intros N1. induction vs; cbn; auto. rewrite IHvs. now destruct k. Qed.
Lemma linv_process i seen b last ins k r : linv i seen b last ins ->
  nth_error T i = Some (field_number k) -> ~ In k seen ->
  process_type p parts k i b last ins = Ok r ->
  let '(b', last', ins', next) := r in i < next <= length T /\ linv next (k :: seen) b' last' ins'.
Proof.
  intros L Ht Nk E. pose proof L as [].
  assert (Li : i < length T) by (apply nth_error_Some; congruence).
  remember (firstn i (b_items b)) as pre. remember (skipn i (b_items b)) as xs.
  assert (Ex : b_items b = pre ++ xs) by (subst; now rewrite firstn_skipn).
  assert (Lp : length pre = i) by (subst pre; rewrite firstn_length; lia).
  assert (Eb : b = mkBuilder (pre ++ xs) (b_ids b)) by (rewrite <- Ex; now destruct b).
  rewrite Eb, <- Lp in E. apply process_type_ok in E; [|rewrite <- Ex; auto].
  destruct E as (G & vs & s' & xs' & P & C & F & ->). rewrite Lp in *. fold T in F |- *.
  remember (skipn i T) as ts. remember (firstn i T) as tp.
  assert (ET : T = tp ++ ts) by (subst; now rewrite firstn_skipn).
  assert (Ltp : length tp = i) by (subst tp; rewrite firstn_length; lia).
  assert (Ets : exists ts', ts = field_number k :: ts').
  { rewrite ET in Ht. rewrite nth_error_app2 in Ht by lia. rewrite Ltp, Nat.sub_diag in Ht.
    destruct ts as [|t ts']; [discriminate|]. cbn in Ht. exists ts'. congruence. }
  destruct Ets as [ts' Ets].
  pose proof (fill_length _ _ _ _ _ F) as Lx'.
  destruct (fill_sel _ _ _ _ _ F) as [F1 F2].
  assert (Lxs : length xs = length ts) by (rewrite Ex, ET, !app_length in li_len0; lia).
  assert (Hn1 : i < nextp k ts i (length T)) by (rewrite Ets; now apply nextp_start).
  pose proof (nextp_le k ts i (length T)) as Hn2.
  assert (FS : forall k', (field_number k' < 12)%N) by apply field_small.
  assert (Sel : forall t ys, sel t T (pre ++ ys) = sel t tp pre ++ sel t ts ys)
    by (intros; rewrite ET; apply sel_app; lia).
  assert (Hpre : sel (field_number k) tp pre = []).
  { destruct (sel (field_number k) tp pre) as [|y ys] eqn:S0; auto. exfalso.
    assert (In (field_number k) tp).
    { assert (In y (sel (field_number k) tp pre)) by (rewrite S0; now left).
      unfold sel in H. apply in_map_iff in H. destruct H as ([t y'] & _ & H).
      apply filter_In in H. destruct H as [H Ht']. cbn in Ht'. apply N.eqb_eq in Ht'. subst t.
      now apply in_combine_l in H. }
    apply In_nth_error in H. destruct H as [j Hj].
    assert (j < length tp) by (apply nth_error_Some; congruence).
    destruct (li_before0 j (field_number k)) as [H'|[H'|(k' & H1 & H2)]].
    - lia.
    - rewrite ET. now rewrite nth_error_app1.
    - specialize (FS k). lia.
    - specialize (FS k). lia.
    - apply field_inj in H1. congruence. }
  assert (Hpts : forall j t, nth_error T j = Some t ->
            j < i /\ nth_error (pre ++ xs') j = nth_error (b_items b) j \/
            i <= j /\ exists x, nth_error (b_items b) j = Some x /\
              (t = 255%N -> nth_error (pre ++ xs') j = Some x) /\
              (t = 254%N -> nth_error (pre ++ xs') j = Some (upd None x))).
  { intros j t Hj. destruct (Nat.lt_ge_cases j i) as [Hji|Hji].
    - left. split; auto. rewrite Ex, !nth_error_app1 by lia. reflexivity.
    - right. split; auto. rewrite ET in Hj. rewrite nth_error_app2, Ltp in Hj by lia.
      destruct (nth_error xs (j - i)) as [x|] eqn:Exj.
      + exists x. rewrite Ex. rewrite !nth_error_app2 by lia. rewrite Lp. split; auto.
        destruct (fill_points _ _ _ _ _ _ _ _ F Hj Exj) as (_ & H1 & H2). auto.
      + apply nth_error_None in Exj. assert (j - i < length ts) by (apply nth_error_Some; congruence). lia. }
  destruct (pulls_indep k _ _ _ P ins0 zero) as (ins2 & last2 & P2 & A & B & C1 & D1).
  { intros ->. cbn. symmetry. auto. }
  { intros ->. cbn. symmetry. auto. }
  assert (AV : all_values k vs).
  { exists (fst (fst s'), ins2, last2). split; [exact P2|]. unfold consumed in *. cbn [fst snd] in *.
    apply andb_true_iff in C. destruct C as [Ca Cb]. rewrite Ca. cbn [andb].
    destruct k; auto. now rewrite (A eq_refl). }
  split; [lia|]. constructor; cbn [b_items b_ids].
  - rewrite ET, !app_length. lia.
  - intros j Hj. destruct (Hpts j _ Hj) as [[H1 H2]|(H1 & x & H2 & H3 & _)].
    + rewrite H2; auto.
    + rewrite (H3 eq_refl). rewrite (li_unset0 j Hj) in H2. congruence.
  - intros j Hj. left. destruct (Hpts j _ Hj) as [[H1 H2]|(H1 & x & H2 & _ & H3)].
    + rewrite H2. destruct (li_removed0 j Hj) as [|[]]; auto; lia.
    + rewrite (H3 eq_refl). destruct (li_removed0 j Hj) as [H|[_ H]]; rewrite H2 in H; inversion H; subst; reflexivity.
  - intros j t Hjn Hj. destruct (Nat.lt_ge_cases j i) as [Hji|Hji].
    + destruct (li_before0 j t Hji Hj) as [|[|(k' & ? & ?)]]; auto. right; right. exists k'. split; auto. now right.
    + rewrite ET in Hj. rewrite nth_error_app2, Ltp in Hj by lia.
      destruct (nextp_between k ts i (length T) (j - i) t Hj) as [|[|]]; auto; [lia|].
      right; right. exists k. split; auto. now left.
  - intros k' [<-|H]; [eapply nth_error_In; eauto|auto].
  - intros k' Hk'. destruct (kind_eq_dec k k') as [<-|Nkk].
    + split; auto. exists vs. split; auto. split.
      * rewrite Sel, Hpre. cbn [app]. apply F2.
        specialize (li_none0 k Nk). rewrite Ex, Sel, Hpre in li_none0. exact li_none0.
      * intros ->. rewrite (li_ids0 Nk). reflexivity.
    + destruct Hk' as [|Hk']; [congruence|].
      destruct (li_vals0 k' Hk') as (G' & vs' & V1 & V2 & V3). split; auto. exists vs'. split; auto. split.
      * rewrite Sel, F1, <- Sel, <- Ex; auto.
        -- specialize (FS k'). lia.
        -- intros H. apply field_inj in H. congruence.
      * intros ->. rewrite alloc_ids_other by congruence. rewrite app_nil_r. auto.
  - intros k' Hk'. rewrite Sel, F1, <- Sel, <- Ex.
    + apply li_none0. intros H; apply Hk'; now right.
    + specialize (FS k'). lia.
    + intros H. apply field_inj in H. subst. apply Hk'. now left.
  - intros H. rewrite li_ids0 by (intros H'; apply H; now right). rewrite alloc_ids_other; auto.
    intros ->. apply H. now left.
  - intros H. assert (k <> KExprQuote) by (intros ->; apply H; now left).
    destruct (C1 H0) as [-> _]. cbn. apply li_ins0. intros H'; apply H; now right.
  - intros H. destruct (kind_eq_dec k KExprQuote) as [->|N1].
    + unfold consumed in C. apply andb_true_iff in C. destruct C as [_ C].
      destruct (snd (fst s')); auto; discriminate.
    + destruct (C1 N1) as [-> _]. cbn. apply li_ins'0. destruct H; [congruence|auto].
  - intros H. assert (k <> KObjectId) by (intros ->; apply H; now left).
    destruct (D1 H0) as [-> _]. cbn. apply li_last0. intros H'; apply H; now right.
Qed.

Lemma decode_loop_ok fuel : forall i seen b last ins seen' b' ins',
  linv i seen b last ins -> decode_loop p parts fuel i seen b last ins = Ok (seen', b', ins') ->
  exists last', linv (length T) seen' b' last' ins'.
Proof.
  induction fuel as [|fuel IH]; intros i seen b last ins seen' b' ins' L E; cbn [decode_loop] in E; [discriminate|].
  fold T in E. destruct (nth_error T i) as [t|] eqn:Ht.
  2: { exists last. inversion E; subst. destruct L. constructor; auto.
       - intros j Hj. destruct (li_removed0 j Hj) as [|[H1 H2]]; auto.
         apply nth_error_None in Ht. assert (j < length T) by (apply nth_error_Some; congruence). lia.
       - intros j t Hj. apply li_before0. apply nth_error_None in Ht. lia. }
  change kUnset with 255%N in E. change kRemoved with 254%N in E.
  destruct (N.eqb_spec t 255) as [->|N1]; [eapply IH; [eapply linv_skip; eauto|eauto]|].
  destruct (N.eqb_spec t 254) as [->|N2]; [eapply IH; [eapply linv_removed; eauto|eauto]|].
  destruct (valid_idx t) eqn:V; [|discriminate]. cbn [negb] in E.
  destruct (valid_idx_field t V) as [k ->]. rewrite kind_of_field in E.
  destruct (existsb _ seen) eqn:Es.
  - apply seen_iff in Es. eapply IH; [eapply linv_skip; eauto|eauto].
  - assert (Nk : ~ In k seen) by (intros H; apply seen_iff in H; congruence).
    destruct (process_type p parts k i b last ins) as [[[[b1 last1] ins1] next]| |] eqn:Ep; try discriminate.
    cbn [rbind] in E. destruct (linv_process _ _ _ _ _ _ _ L Ht Nk Ep) as [_ L']. eapply IH; eauto.
Qed.
Lemma decode_loop_safe fuel : forall i seen b last ins,
  linv i seen b last ins -> length T - i < fuel -> decode_loop p parts fuel i seen b last ins <> Crash.
Proof.
  induction fuel as [|fuel IH]; intros i seen b last ins L Hf; [lia|]. cbn [decode_loop]. fold T.
  destruct (nth_error T i) as [t|] eqn:Ht; [|discriminate].
  assert (i < length T) by (apply nth_error_Some; congruence).
  change kUnset with 255%N. change kRemoved with 254%N.
  destruct (N.eqb_spec t 255) as [->|N1]; [apply IH; [eapply linv_skip; eauto|lia]|].
  destruct (N.eqb_spec t 254) as [->|N2]; [apply IH; [eapply linv_removed; eauto|lia]|].
  destruct (valid_idx t) eqn:V; [|discriminate]. cbn [negb].
  destruct (valid_idx_field t V) as [k ->]. rewrite kind_of_field.
  destruct (existsb _ seen) eqn:Es.
  - apply seen_iff in Es. apply IH; [eapply linv_skip; eauto|lia].
  - assert (Nk : ~ In k seen) by (intros Hk; apply seen_iff in Hk; congruence).
    pose proof (process_type_safe p parts k i b last ins) as Sf.
    destruct (process_type p parts k i b last ins) as [[[[b1 last1] ins1] next]| |] eqn:Ep; try discriminate; [|tauto].
    cbn [rbind]. destruct (linv_process _ _ _ _ _ _ _ L Ht Nk Ep) as [Hn L']. apply IH; auto. lia.
Qed.
Lemma decode_loop_runs fuel : Forall good_byte T ->
  (forall k, In (field_number k) T -> Forall (good k) (p :: parts) /\
     exists vs, all_values k vs /\ length vs = count (field_number k) T) ->
  forall i seen b last ins,
  linv i seen b last ins -> length T - i < fuel ->
  exists r, decode_loop p parts fuel i seen b last ins = Ok r.
Proof.
  intros GB AV. induction fuel as [|fuel IH]; intros i seen b last ins L Hf; [lia|]. cbn [decode_loop]. fold T.
  destruct (nth_error T i) as [t|] eqn:Ht; [|eauto].
  assert (Hi : i < length T) by (apply nth_error_Some; congruence).
  change kUnset with 255%N. change kRemoved with 254%N.
  destruct (N.eqb_spec t 255) as [->|N1]; [apply IH; [eapply linv_skip; eauto|lia]|].
  destruct (N.eqb_spec t 254) as [->|N2]; [apply IH; [eapply linv_removed; eauto|lia]|].
  assert (GT : good_byte t) by (eapply Forall_forall; eauto using nth_error_In).
  destruct GT as [|[|[k ->]]]; try congruence. rewrite valid_field. cbn [negb].
  rewrite kind_of_field.
  destruct (existsb _ seen) eqn:Es.
  - apply seen_iff in Es. apply IH; [eapply linv_skip; eauto|lia].
  - assert (Nk : ~ In k seen) by (intros Hk; apply seen_iff in Hk; congruence).
    destruct (AV k (nth_error_In _ _ Ht)) as (G & vs & (s' & P & C) & Lv).
    destruct (pulls_indep k _ _ _ P ins last) as (ins2 & last2 & P2 & A & B & C1 & D1).
    { intros ->. cbn. apply (li_ins _ _ _ _ _ L Nk). }
    { intros ->. cbn. apply (li_last _ _ _ _ _ L Nk). }
    assert (LB := li_len _ _ _ _ _ L).
    assert (Lp : length (firstn i (b_items b)) = i) by (rewrite firstn_length; lia).
    assert (Eb : b = mkBuilder (firstn i (b_items b) ++ skipn i (b_items b)) (b_ids b))
      by (rewrite firstn_skipn; now destruct b).
    destruct (process_type_runs p parts k (firstn i (b_items b)) (skipn i (b_items b)) (b_ids b) last ins vs
                (fst (fst s'), ins2, last2)) as [r Ep]; auto.
    { rewrite firstn_skipn. exact LB. }
    { unfold consumed in *. cbn [fst snd] in *.
      apply andb_true_iff in C. destruct C as [Ca Cb]. rewrite Ca. cbn [andb].
      destruct k; auto. now rewrite (A eq_refl). }
    { rewrite Lp. fold T. rewrite Lv. rewrite <- (firstn_skipn i T) at 1. unfold count. rewrite count_occ_app.
      replace (count_occ N.eq_dec (firstn i T) (field_number k)) with 0; auto.
      symmetry. apply count_occ_not_In. intros H. apply In_nth_error in H. destruct H as [j Hj].
      assert (Hji : j < length (firstn i T)) by (apply nth_error_Some; congruence).
      rewrite firstn_length in Hji.
      assert (Hj' : nth_error T j = Some (field_number k)).
      { rewrite <- (firstn_skipn i T). rewrite nth_error_app1; auto. rewrite firstn_length; lia. }
      pose proof (field_small k).
      destruct (li_before _ _ _ _ _ L j _ ltac:(lia) Hj') as [?|[?|(k' & Ek & Hk)]]; try lia.
      apply field_inj in Ek. congruence. }
    rewrite <- Eb, Lp in Ep. rewrite Ep. cbn [rbind]. destruct r as [[[b1 last1] ins1] next].
    destruct (linv_process _ _ _ _ _ _ _ L Ht Nk Ep) as [Hn L']. apply IH; auto. lia.
Qed.
Lemma linv_start : linv 0 [] (mkBuilder (repeat None (length T)) []) zero ins0.
Proof.
  assert (R : forall j t, nth_error T j = Some t -> nth_error (repeat (@None (option value)) (length T)) j = Some None).
  { intros j t Hj. assert (j < length T) by (apply nth_error_Some; congruence).
    rewrite nth_error_repeat; auto. }
  constructor; cbn [b_items b_ids]; auto.
  - apply repeat_length.
  - eauto.
  - intros j Hj. right. split; [lia|eauto].
  - intros j t H. lia.
  - intros k H; destruct H.
  - intros k H; destruct H.
  - intros k _. apply Forall_forall. intros x Hx. unfold sel in Hx. apply in_map_iff in Hx.
    destruct Hx as ([t y] & <- & H). apply filter_In in H. destruct H as [H _].
    apply in_combine_r in H. apply repeat_spec in H. now subst.
  - intros H; destruct H.
Qed.
End Loop.

(** ** The values of a type are those that are stored *)

Section Pulls.
Variables (k : kind) (R : raw k -> ObjectId -> cval k -> ObjectId -> Prop).
Hypothesis HR : forall r rs ins last v s',
  pull k (r :: rs, ins, last) = Some (v, s') <->
  exists last', R r last v last' /\ s' = (rs, ins, last').
Hypothesis Hnil : forall ins last, pull k ([], ins, last) = None.
Inductive conv : list (raw k) -> ObjectId -> list (cval k) -> Prop :=
  | conv_nil last : conv [] last []
  | conv_cons r rs last v last' vs : R r last v last' -> conv rs last' vs -> conv (r :: rs) last (v :: vs).
Lemma pulls_conv rs ins : forall last vs,
  (exists s', pulls k (rs, ins, last) vs s' /\ fst (fst s') = []) <-> conv rs last vs.
Proof.
  induction rs as [|r rs IH]; intros last vs.
  - split.
    + intros (s' & P & E). inversion P; subst; [constructor|]. rewrite Hnil in H. discriminate.
    + intros C. inversion C; subst. eexists. split; [constructor|reflexivity].
  - split.
    + intros (s' & P & E). inversion P; subst; [cbn in E; discriminate|].
      apply HR in H. destruct H as (last' & Hr & ->). econstructor; eauto. apply IH. eauto.
    + intros C. inversion C; subst. match goal with H : conv rs _ _ |- _ => apply IH in H; destruct H as (s' & P & E) end.
      exists s'. split; auto. econstructor; eauto. apply HR. eauto.
Qed.
End Pulls.

Lemma consumed_iff k s : consumed k s = true <->
  fst (fst s) = [] /\ (k = KExprQuote -> snd (fst s) = []).
Proof.
  unfold consumed. rewrite andb_true_iff. destruct (fst (fst s)) as [|r l]; split; intros [H1 H2]; try discriminate.
  - split; auto. intros ->. now destruct (snd (fst s)).
  - split; auto. destruct k; auto. now rewrite H2.
Qed.
Lemma all_values_conv p parts ins0 k R vs :
  (forall r rs ins last v s', pull k (r :: rs, ins, last) = Some (v, s') <->
     exists last', R r last v last' /\ s' = (rs, ins, last')) ->
  (forall ins last, pull k ([], ins, last) = None) -> k <> KExprQuote ->
  (all_values p parts ins0 k vs <-> conv k R (concat (map (values_of k) (p :: parts))) zero vs).
Proof.
  intros HR Hn Ne. rewrite <- (pulls_conv k R HR Hn _ ins0). unfold all_values, initial.
  split; intros (s' & P & C); exists s'; split; auto.
  - apply consumed_iff in C. tauto.
  - apply consumed_iff. split; auto. congruence.
Qed.
Lemma conv_same k (f : raw k -> cval k) rs : forall last vs,
  conv k (fun r last v last' => v = f r /\ last' = last) rs last vs <-> vs = map f rs.
Proof.
  induction rs as [|r rs IH]; intros last vs; split.
  - intros C. now inversion C.
  - intros ->. constructor.
  - intros C. inversion C; subst. match goal with H : _ /\ _ |- _ => destruct H as [-> ->] end.
    cbn [map]. f_equal. now apply (IH last).
  - intros ->. cbn [map]. econstructor; [split; reflexivity|]. now apply IH.
Qed.
Lemma map_val_inj k vs ws : map (val k) vs = map (val k) ws -> vs = ws.
Proof.
  revert ws. induction vs as [|v vs IH]; intros [|w ws] E; try discriminate; auto.
  cbn in E. injection E as E1 E2. f_equal; auto.
  apply Eqdep_dec.inj_pair2_eq_dec in E1; [auto|apply kind_eq_dec].
Qed.
Lemma combine_concat (cs : list compact) : (forall c, In c cs -> length (c_hi c) = length (c_lo c)) ->
  concat (map (values_of KObjectId) cs) = combine (concat (map c_hi cs)) (concat (map c_lo cs)).
Proof.
  assert (A : forall (a b : list N) a' b', length a = length b -> combine (a ++ a') (b ++ b') = combine a b ++ combine a' b').
  { induction a as [|x a IH]; intros [|y b] a' b' L; try discriminate; auto. cbn. f_equal. apply IH. now injection L. }
  induction cs as [|c cs IH]; intros H; cbn; auto. rewrite A by (apply H; now left). f_equal.
  apply IH. intros; apply H; now right.
Qed.
Lemma high64_ones hi : (internal_high64 (unsafe_create hi 0) = hi mod 2 ^ 64)%N.
Proof.
  pose proof (unsafe_create_wf hi 0) as W. rewrite (high64_sum _ W). unfold unsafe_create.
  cbn [allocator_id offset_bits metadata]. rewrite !N.land_ones, !N.shiftr_div_pow2.
  replace (2 ^ 64)%N with (2 ^ 52 * (2 ^ 6 * 2 ^ 6))%N by reflexivity.
  rewrite N.mod_mul_r by discriminate. rewrite (N.mod_mul_r (hi / 2 ^ 52)) by discriminate.
  replace (hi / 2 ^ 58)%N with (hi / 2 ^ 52 / 2 ^ 6)%N by (rewrite N.div_div by discriminate; reflexivity).
  ring.
Qed.
Lemma high64_create hi lo : (hi < 2 ^ 64)%N -> internal_high64 (unsafe_create hi lo) = hi.
Proof.
  intros H. transitivity (internal_high64 (unsafe_create hi 0)); [reflexivity|].
  rewrite high64_ones. now apply N.mod_small.
Qed.
Lemma low64_create hi lo : (lo < 2 ^ 64)%N -> internal_low64 (unsafe_create hi lo) = lo.
Proof. intros H. unfold internal_low64, unsafe_create. cbn [id_]. rewrite N.land_ones. now apply N.mod_small. Qed.

Definition id_step (r : N * N) (last v last' : ObjectId) : Prop :=
  v = unsafe_create (add64 (fst r) (internal_high64 last)) (add64 (snd r) (internal_low64 last)) /\ last' = v.
Lemma conv_ids rs : forall hi lo vs, (hi < 2 ^ 64)%N -> (lo < 2 ^ 64)%N ->
  conv KObjectId id_step rs (unsafe_create hi lo) vs <-> map (val KObjectId) vs = ids_from hi lo rs.
Proof.
  induction rs as [|[dh dl] rs IH]; intros hi lo vs Hh Hl; split.
  - intros C. now inversion C.
  - cbn. destruct vs; [constructor|discriminate].
  - intros C. inversion C; subst. match goal with H : id_step _ _ _ _ |- _ => destruct H as [-> ->] end.
    cbn [ids_from map fst snd] in *. rewrite high64_create, low64_create in * by auto.
    unfold add64 in *. rewrite (N.add_comm dh), (N.add_comm dl) in *.
    match goal with H : conv _ _ _ _ _ |- _ => apply IH in H; [rewrite H; reflexivity|apply N.mod_lt; discriminate..] end.
  - destruct vs as [|v vs]; [discriminate|]. cbn [ids_from map]. intros E. injection E as E1 E2.
    apply Eqdep_dec.inj_pair2_eq_dec in E1; [|apply kind_eq_dec]. subst v.
    econstructor.
    + split; [|reflexivity]. cbn [fst snd]. rewrite high64_create, low64_create by auto.
      unfold add64. now rewrite (N.add_comm dh), (N.add_comm dl).
    + apply IH; auto; apply N.mod_lt; discriminate.
Qed.
Lemma conv_dtypes rs : forall last vs,
  conv KDType (fun r last v last' => dtype_from_id r = Some v /\ last' = last) rs last vs <->
  Forall2 (fun z d => (z mod 256)%Z = Z.of_N (type_id d)) rs vs.
Proof.
  induction rs as [|r rs IH]; intros last vs; split.
  - intros C. inversion C; constructor.
  - intros F. inversion F; constructor.
  - intros C. inversion C; subst. match goal with H : _ /\ _ |- _ => destruct H as [H ->] end.
    constructor; [now apply dtype_from_id_iff|]. eapply IH; eauto.
  - intros F. inversion F; subst. econstructor; [split; [now apply dtype_from_id_iff|reflexivity]|]. now apply IH.
Qed.
Lemma pulls_exprs ins : forall vs last,
  (exists s', pulls KExprQuote ([], ins, last) vs s' /\ consumed KExprQuote s' = true) <-> ins = map InExpr vs.
Proof.
  induction ins as [|x ins IH]; intros vs last; split.
  - intros (s' & P & C). inversion P; subst; auto. cbn in H. discriminate.
  - destruct vs; [|discriminate]. intros _. eexists. split; [constructor|reflexivity].
  - intros (s' & P & C). inversion P; subst; [cbn in C; discriminate|].
    cbn in H. destruct x as [e|c|]; try discriminate. inversion H; subst. cbn [map]. f_equal. apply (IH _ last). eauto.
  - destruct vs as [|v vs]; [discriminate|]. cbn [map]. intros E. injection E as -> E.
    destruct (proj2 (IH vs last) E) as (s' & P & C). exists s'. split; auto. econstructor; [reflexivity|exact P].
Qed.
Lemma all_values_exprs p parts ins0 vs :
  all_values p parts ins0 KExprQuote vs <-> ins0 = map InExpr vs.
Proof.
  unfold all_values, initial.
  replace (concat (map (values_of KExprQuote) (p :: parts))) with (@nil (raw KExprQuote)); [apply pulls_exprs|].
  symmetry. generalize (p :: parts) as cs. induction cs; cbn; auto.
Qed.
Lemma all_values_units p parts ins0 vs : all_values p parts ins0 KUnit vs.
Proof.
  unfold all_values, initial.
  replace (concat (map (values_of KUnit) (p :: parts))) with (@nil (raw KUnit)).
  2: { symmetry. generalize (p :: parts) as cs. induction cs; cbn; auto. }
  exists ([], ins0, zero). split; [|reflexivity].
  induction vs as [|[] vs IH]; [constructor|]. econstructor; [reflexivity|auto].
Qed.
Ltac plain_kind k :=
  match goal with |- all_values ?p ?parts ?ins0 _ ?vs <-> _ =>
  rewrite (all_values_conv p parts ins0 k (fun r last v last' => v = r /\ last' = last)); [
    rewrite (conv_same k (fun x => x)), map_id; split; [intros ->; reflexivity|intros E; exact (map_val_inj k _ _ E)]
   |intros r rs ins last v s'; cbn; split;
     [intros E; inversion E; subst; eauto|intros (last' & [-> ->] & ->); reflexivity]
   |reflexivity|discriminate] end.
Lemma all_values_stores p parts ins0 exprs k vs : Forall (good k) (p :: parts) ->
  (k = KExprQuote -> ins0 = map InExpr exprs) ->
  (all_values p parts ins0 k vs <-> stores k (p :: parts) exprs (map (val k) vs)).
Proof.
  intros G He. destruct k; cbn [stores].
  - rewrite (all_values_conv p parts ins0 KObjectId id_step).
    + assert (Hg : forall c, In c (p :: parts) -> length (c_hi c) = length (c_lo c)).
      { intros c Hc. rewrite Forall_forall in G. now apply G. }
      rewrite combine_concat by auto. unfold zero. rewrite (conv_ids _ 0 0) by reflexivity. tauto.
    + intros [hi lo] rs ins last v s'. cbn. unfold id_step. cbn [fst snd]. split.
      * intros E. inversion E; subst. eauto.
      * intros (last' & [-> ->] & ->). reflexivity.
    + reflexivity.
    + discriminate.
  - plain_kind KInt32.
  - plain_kind KInt64.
  - plain_kind KFloat32.
  - plain_kind KFloat64.
  - plain_kind KBool.
  - split; auto. intros _. apply all_values_units.
  - plain_kind KText.
  - plain_kind KBytes.
  - rewrite all_values_exprs. rewrite (He eq_refl). split.
    + intros E. f_equal. clear - E. revert vs E. induction exprs as [|e l IH]; intros [|v vs] E; try discriminate; auto.
      cbn in E. injection E as -> E. f_equal; auto.
    + intros E. apply map_val_inj in E. now subst.
  - rewrite (all_values_conv p parts ins0 KDType (fun r last v last' => dtype_from_id r = Some v /\ last' = last)).
    + rewrite conv_dtypes. split.
      * intros F. exists vs. auto.
      * intros (ds & E & F). apply map_val_inj in E. now subst.
    + intros r rs ins last v s'. cbn. split.
      * destruct (dtype_from_id r); [|discriminate]. intros E. inversion E; subst. eauto.
      * intros (last' & [-> ->] & ->). reflexivity.
    + reflexivity.
    + discriminate.
Qed.

(** ** The decoder *)

Lemma app_inj_len {A} (a b c d : list A) : length b = length d -> a ++ b = c ++ d -> a = c /\ b = d.
Proof.
  intros L E. assert (La : length a = length c) by (apply (f_equal (@length _)) in E; rewrite !app_length in E; lia).
  clear L. revert c La E. induction a as [|x a IH]; intros [|y c] La E; try discriminate; auto.
  cbn in E. injection E as -> E. injection La as La. destruct (IH c La E) as [-> ->]. auto.
Qed.
Lemma split_inputs_iff p ins ins' parts :
  split_inputs p ins = Ok (ins', parts) <->
  ins = ins' ++ map InPart parts /\ extra_part_count p = Z.of_nat (length parts).
Proof.
  unfold split_inputs. set (n := length ins - Z.to_nat (extra_part_count p)).
  match goal with |- context [?f (skipn n ins)] => set (go := f) end.
  assert (G : forall l r, go l = Ok r <-> exists ps, l = map InPart ps /\ r = (firstn n ins, ps)).
  { induction l as [|x l IH]; intros r; cbn.
    - split; [intros E; exists []; split; auto; congruence|]. intros (ps & E & ->). destruct ps; [auto|discriminate].
    - destruct x as [e|c|]; [split; [discriminate|intros ([|] & E & _); discriminate]| |
                             split; [discriminate|intros ([|] & E & _); discriminate]].
      destruct (go l) as [[i q]| |] eqn:E; cbn [rbind].
      + destruct (proj1 (IH _) eq_refl) as (ps & -> & Ei). inversion Ei; subst. split.
        * intros Er. exists (c :: ps). split; auto. congruence.
        * intros (ps' & E' & ->). destruct ps' as [|c' ps']; [discriminate|]. cbn in E'. injection E' as -> E'.
          do 3 f_equal. clear - E'. revert ps' E'. induction ps as [|a ps IH]; intros [|b ps'] E'; try discriminate; auto.
          cbn in E'. injection E' as -> E'. f_equal; auto.
      + split; [discriminate|]. intros ([|c' ps] & E' & ->); [discriminate|]. cbn in E'. injection E' as -> ->.
        enough (@Err (list input * list compact) = Ok (firstn n ins, ps)) by discriminate. apply IH. eauto.
      + split; [discriminate|]. intros ([|c' ps] & E' & ->); [discriminate|]. cbn in E'. injection E' as -> ->.
        enough (@Crash (list input * list compact) = Ok (firstn n ins, ps)) by discriminate. apply IH. eauto. }
  destruct ((extra_part_count p <? 0) || (Z.of_nat (length ins) <? extra_part_count p))%Z eqn:C.
  - split; [discriminate|]. intros [-> E]. rewrite E, app_length, map_length in C.
    apply orb_true_iff in C. destruct C as [C|C]; apply Z.ltb_lt in C; lia.
  - apply orb_false_iff in C. destruct C as [C1 C2]. apply Z.ltb_ge in C1. apply Z.ltb_ge in C2.
    rewrite G. split.
    + intros (ps & E & Er). inversion Er; subst. rewrite <- E, firstn_skipn. split; auto.
      apply (f_equal (@length _)) in E. rewrite skipn_length, map_length in E. unfold n in E. lia.
    + intros [E L]. exists parts.
      destruct (app_inj_len (firstn n ins) (skipn n ins) ins' (map InPart parts)) as [E1 E2].
      * rewrite skipn_length, map_length. unfold n. rewrite L. rewrite E, app_length, map_length. lia.
      * rewrite firstn_skipn. exact E.
      * rewrite E1, E2. auto.
Qed.
Lemma split_inputs_safe p ins : split_inputs p ins <> Crash.
Proof.
  unfold split_inputs. set (n := length ins - Z.to_nat (extra_part_count p)).
  destruct (_ || _); [discriminate|].
  generalize (skipn n ins) as l. induction l as [|x l IH]; [discriminate|].
  destruct x; try discriminate.
  match goal with |- rbind ?x _ <> _ => destruct x as [[]| |] end; cbn [rbind]; congruence.
Qed.
Lemma stores_nothing k p exprs : stores k [p] exprs [] <->
  good k p /\ values_of k p = [] /\ (k = KExprQuote -> exprs = []).
Proof.
  unfold good. destruct k; cbn; rewrite ?app_nil_r.
  - split.
    + intros [H E]. split; auto. split; [|discriminate]. destruct (combine (c_hi p) (c_lo p)) as [|[] l]; auto; discriminate.
    + intros (H & -> & _). split; auto. intros c [<-|[]]. auto.
  - split; [destruct (c_i32 p); [intros _; repeat split; auto; discriminate|discriminate]|intros (_ & -> & _); reflexivity].
  - split; [destruct (c_i64 p); [intros _; repeat split; auto; discriminate|discriminate]|intros (_ & -> & _); reflexivity].
  - split; [destruct (c_f32 p); [intros _; repeat split; auto; discriminate|discriminate]|intros (_ & -> & _); reflexivity].
  - split; [destruct (c_f64 p); [intros _; repeat split; auto; discriminate|discriminate]|intros (_ & -> & _); reflexivity].
  - split; [destruct (c_bool p); [intros _; repeat split; auto; discriminate|discriminate]|intros (_ & -> & _); reflexivity].
  - split; [intros _; repeat split; auto; discriminate|auto].
  - split; [destruct (c_text p); [intros _; repeat split; auto; discriminate|discriminate]|intros (_ & -> & _); reflexivity].
  - split; [destruct (c_bytes p); [intros _; repeat split; auto; discriminate|discriminate]|intros (_ & -> & _); reflexivity].
  - split.
    + destruct exprs; [|discriminate]. intros _; repeat split; auto; discriminate.
    + intros (_ & _ & H). now rewrite H.
  - split.
    + intros (ds & E & F). destruct ds; [|discriminate]. inversion F. repeat split; auto; discriminate.
    + intros (_ & -> & _). exists []. split; auto.
Qed.
Lemma unused_iff p ins seen : unused_values p ins seen = false <->
  forall k, ~ In k seen -> good k p /\ values_of k p = [] /\ (k = KExprQuote -> ins = []).
Proof.
  unfold unused_values.
  set (f := fun k => if existsb (fun k' => (scalar_type_id k' =? scalar_type_id k)%N) seen then false else _).
  assert (Hf : forall k, f k = false <-> (~ In k seen -> good k p /\ values_of k p = [] /\ (k = KExprQuote -> ins = []))).
  { intros k. unfold f. destruct (existsb _ seen) eqn:E.
    - rewrite (field_scalar k) in E. apply seen_iff in E. tauto.
    - assert (Nk : ~ In k seen) by (intros H; apply seen_iff in H; rewrite <- (field_scalar k) in H; congruence).
      destruct (size_cases k p) as [C|[C Ng]].
      + rewrite C. apply good_size in C. destruct (kind_eq_dec k KExprQuote) as [->|Ne].
        * destruct ins; cbn; split; try discriminate; auto.
          intros H. destruct (H Nk) as (_ & _ & H'). now specialize (H' eq_refl).
        * replace (match k with KExprQuote => match ins with [] => false | _ :: _ => true end
                   | _ => negb (length (values_of k p) =? 0) end)
            with (negb (length (values_of k p) =? 0)) by (now destruct k).
          split.
          -- intros H _. split; auto. split; [|congruence]. apply negb_false_iff, Nat.eqb_eq in H.
             now destruct (values_of k p).
          -- intros H. destruct (H Nk) as (_ & -> & _). reflexivity.
      + rewrite C. split; [discriminate|]. intros H. destruct (H Nk). contradiction. }
  split.
  - intros E k. apply Hf. destruct (f k) eqn:Fk; auto.
    assert (existsb f all_kinds = true) by (apply existsb_exists; exists k; auto using all_kinds_in). congruence.
  - intros H. destruct (existsb f all_kinds) eqn:E; auto. apply existsb_exists in E. destruct E as (k & _ & E).
    specialize (proj2 (Hf k) (H k)). congruence.
Qed.

Lemma Forall2_nth {A B} (R : A -> B -> Prop) l l' : length l = length l' ->
  (forall j x y, nth_error l j = Some x -> nth_error l' j = Some y -> R x y) -> Forall2 R l l'.
Proof.
  revert l'. induction l as [|x l IH]; intros [|y l'] L H; try discriminate; constructor.
  - apply (H 0); reflexivity.
  - apply IH; [now injection L|]. intros j. apply (H (S j)).
Qed.
Lemma Forall2_length {A B} (R : A -> B -> Prop) l l' : Forall2 R l l' -> length l = length l'.
Proof. induction 1; cbn; auto. Qed.
Lemma sel_of_kind k T xs : Forall2 announces T xs -> sel (field_number k) T xs = map some_some (of_kind k xs).
Proof.
  pose proof (field_small k).
  induction 1 as [|t x T xs H1 F IH]; auto. rewrite sel_cons, IH. unfold of_kind. cbn [flat_map]. rewrite map_app.
  destruct H1 as [[-> ->]|[[-> ->]|(v & -> & ->)]].
  - destruct (N.eqb_spec 255 (field_number k)); [lia|reflexivity].
  - destruct (N.eqb_spec 254 (field_number k)); [lia|reflexivity].
  - destruct (kind_eq_dec (projT1 v) k) as [<-|Ne].
    + now rewrite N.eqb_refl.
    + destruct (N.eqb_spec (field_number (projT1 v)) (field_number k)) as [E|]; auto. apply field_inj in E. contradiction.
Qed.
Lemma map_some_some_inj l l' : map some_some l = map some_some l' -> l = l'.
Proof. revert l'. induction l as [|x l IH]; intros [|y l'] E; try discriminate; auto. cbn in E. injection E as -> E. f_equal; auto. Qed.
Lemma of_kind_vals k xs : exists cvs, of_kind k xs = map (val k) cvs.
Proof.
  induction xs as [|x xs [cvs IH]]; [now exists []|]. unfold of_kind in *. cbn [flat_map]. rewrite IH.
  destruct x as [[[k' v]|]|]; try (exists cvs; reflexivity). cbn [projT1].
  destruct (kind_eq_dec k' k) as [->|]; [exists (v :: cvs); reflexivity|exists cvs; reflexivity].
Qed.
Lemma sel_in T xs j t x : nth_error T j = Some t -> nth_error xs j = Some x -> In x (sel t T xs).
Proof.
  revert xs j. induction T as [|t0 T IH]; intros [|x0 xs] [|j] Ht Hx; try discriminate.
  - cbn in Ht, Hx. injection Ht as ->. injection Hx as ->. rewrite sel_cons, N.eqb_refl. now left.
  - cbn in Ht, Hx. rewrite sel_cons. destruct (t0 =? t)%N; [right|]; eauto.
Qed.
Lemma of_kind_none k T xs : Forall2 announces T xs -> ~ In (field_number k) T -> of_kind k xs = [].
Proof.
  induction 1 as [|t x T xs H1 F IH]; intros Nk; auto. unfold of_kind in *. cbn [flat_map].
  rewrite IH by (intros H; apply Nk; now right). rewrite app_nil_r.
  destruct H1 as [[-> ->]|[[-> ->]|(v & -> & ->)]]; auto.
  destruct (kind_eq_dec (projT1 v) k) as [<-|]; auto. destruct Nk. now left.
Qed.
Lemma allocations_ids vs xs : of_kind KObjectId xs = map (val KObjectId) vs ->
  allocations xs = flat_map (alloc_ids KObjectId) vs.
Proof.
  intros E. unfold allocations. rewrite E. clear. induction vs as [|v vs IH]; auto. cbn in *. now rewrite IH.
Qed.

Theorem decode_slice_ok p ins b : decode_slice p ins = Ok b ->
  denotes p ins (b_items b) /\ b_ids b = allocations (b_items b).
Proof.
  unfold decode_slice. intros E.
  destruct (split_inputs p ins) as [[ins' parts]| |] eqn:Sp; try discriminate. cbn [rbind] in E.
  apply split_inputs_iff in Sp. destruct Sp as [-> Ec].
  match type of E with rbind ?x _ = _ => destruct x as [[[seen b'] ins'']| |] eqn:El; try discriminate end.
  cbn [rbind] in E. apply (decode_loop_ok p parts ins') in El; [|apply linv_start].
  destruct El as [last L]. destruct (unused_values p ins'' seen) eqn:U; [discriminate|].
  destruct ins'' as [|]; [|discriminate]. injection E as ->.
  pose proof (proj1 (unused_iff p [] seen) U) as UU. clear U. rename UU into U.
  destruct L as [L1 L2 L3 L4 L5 L6 L7 L8 L9 L10 L11].
  assert (In_seen : forall k, In (field_number k) (types_buffer p) -> In k seen).
  { intros k H. apply In_nth_error in H. destruct H as [j Hj].
    assert (j < length (types_buffer p)) by (apply nth_error_Some; congruence).
    pose proof (field_small k). destruct (L4 j _ H Hj) as [|[|(k' & E & Hk)]]; try lia.
    apply field_inj in E. now subst. }
  assert (F : Forall2 announces (types_buffer p) (b_items b)).
  { apply Forall2_nth; [auto|]. intros j t x Ht Hx.
    assert (Hj : j < length (types_buffer p)) by (apply nth_error_Some; congruence).
    destruct (L4 j t Hj Ht) as [->|[->|(k & -> & Hk)]].
    - left. rewrite (L2 j Ht) in Hx. split; congruence.
    - right; left. destruct (L3 j Ht) as [H|[H _]]; [|lia]. rewrite H in Hx. split; congruence.
    - right; right. destruct (L6 k Hk) as (_ & vs & _ & Sl & _).
      pose proof (sel_in _ _ _ _ _ Ht Hx) as Hin. rewrite Sl in Hin. apply in_map_iff in Hin.
      destruct Hin as (v & <- & Hv). apply in_map_iff in Hv. destruct Hv as (w & <- & _).
      exists (val k w). auto. }
  assert (Ex : exists exprs, ins' = map InExpr exprs).
  { destruct (in_dec kind_eq_dec KExprQuote seen) as [H|H].
    - destruct (L6 _ H) as (_ & vs & A & _). apply all_values_exprs in A. eauto.
    - exists []. symmetry. auto. }
  destruct Ex as [exprs ->].
  split.
  - exists exprs, parts. repeat split; auto.
    + intros k H. destruct (L6 k (In_seen k H)) as (G & vs & A & Sl & _).
      rewrite (sel_of_kind k _ _ F) in Sl. apply map_some_some_inj in Sl. rewrite Sl.
      apply (all_values_stores p parts (map InExpr exprs)); auto.
    + intros k H. apply stores_nothing. destruct (U k) as (U1 & U2 & U3); [auto|]. split; auto. split; auto.
      intros ->. assert (Nk : ~ In KExprQuote seen) by auto. specialize (L9 Nk). destruct exprs; [auto|discriminate].
  - destruct (in_dec kind_eq_dec KObjectId seen) as [H|H].
    + destruct (L6 _ H) as (_ & vs & _ & Sl & Hi). rewrite (Hi eq_refl).
      rewrite (sel_of_kind _ _ _ F) in Sl. apply map_some_some_inj in Sl. symmetry. now apply allocations_ids.
    + rewrite (L8 H). symmetry. apply (allocations_ids []). eapply of_kind_none; eauto.
Qed.

Theorem decode_slice_safe p ins : decode_slice p ins <> Crash.
Proof.
  unfold decode_slice. pose proof (split_inputs_safe p ins) as S0.
  destruct (split_inputs p ins) as [[ins' parts]| |]; try discriminate; [|congruence]. cbn [rbind].
  pose proof (decode_loop_safe p parts ins' (S (length (types_buffer p))) 0 [] _ zero ins'
                (linv_start p parts ins') ltac:(lia)) as L.
  unfold zero in L.
  match goal with |- rbind ?x _ <> _ => destruct x as [[[seen b'] ins'']| |] end; cbn [rbind]; try discriminate; [|congruence].
  destruct (unused_values p ins'' seen); [discriminate|]. now destruct ins''.
Qed.

Lemma stores_unique k cs exprs vs vs' : k <> KUnit ->
  stores k cs exprs vs -> stores k cs exprs vs' -> vs = vs'.
Proof.
  intros N1. destruct k; cbn; try congruence.
  - intros [_ ->] [_ ->]. reflexivity.
  - intros (ds & -> & F) (ds' & -> & F'). f_equal. revert ds' F'.
    induction F as [|z d l ds H F IH]; intros ds' F'; inversion F'; subst; auto. f_equal; auto.
    apply type_id_inj. lia.
Qed.
Lemma slots_unique T : forall xs xs', Forall2 announces T xs -> Forall2 announces T xs' ->
  (forall k, k <> KUnit -> of_kind k xs = of_kind k xs') -> xs = xs'.
Proof.
  induction T as [|t T IH]; intros xs xs' F F' H; [inversion F; inversion F'; auto|].
  inversion F as [|? x ? l' A F1]; inversion F' as [|? x' ? l'0 B F2]; subst.
  pose proof field_small as FS.
  assert (Tail : forall k, of_kind k (x :: l') = of_kind k (x' :: l'0) ->
            (forall v, x = Some (Some v) -> projT1 v <> k) -> (forall v, x' = Some (Some v) -> projT1 v <> k) ->
            of_kind k l' = of_kind k l'0).
  { intros k E N1 N2. unfold of_kind in *. cbn [flat_map] in E.
    destruct x as [[v|]|], x' as [[v'|]|]; cbn [app] in E; auto;
      repeat match type of E with context [kind_eq_dec ?a ?b] => destruct (kind_eq_dec a b) end; cbn [app] in E; auto;
      exfalso; ((eapply N1; eauto; fail) || (eapply N2; eauto; fail)). }
  destruct A as [[-> ->]|[[-> ->]|(v & -> & ->)]], B as [[E ->]|[[E ->]|(v' & E & ->)]]; try discriminate;
    try (pose proof (FS (projT1 v')); lia); try (pose proof (FS (projT1 v)); lia).
  - f_equal. apply IH; auto.
  - f_equal. apply IH; auto.
  - apply field_inj in E. destruct v as [k v], v' as [k' v']. cbn [projT1] in E. subst k'.
    assert (K : val k v = val k v' /\ forall k0, k0 <> KUnit -> of_kind k0 l' = of_kind k0 l'0).
    { destruct (kind_eq_dec k KUnit) as [->|Nu].
      - split; [now destruct v, v'|]. intros k0 N0. apply Tail; auto; intros w Ew; inversion Ew; subst; cbn; congruence.
      - assert (K0 := H k Nu). unfold of_kind in K0. cbn [flat_map projT1] in K0.
        destruct (kind_eq_dec k k) as [_|C]; [|congruence]. cbn [app] in K0.
        pose proof (f_equal (fun l => hd (existT _ k v) l) K0) as K1.
        pose proof (f_equal (fun l => tl l) K0) as K2. cbn [hd tl] in K1, K2.
        split; [exact K1|]. intros k0 N0. destruct (kind_eq_dec k k0) as [<-|Nk].
        + exact K2.
        + apply Tail; auto; intros w Ew; inversion Ew; subst; cbn; congruence. }
    destruct K as [K1 K2]. apply (f_equal2 (fun a b => Some (Some a) :: b) K1). apply IH; auto.
Qed.
Lemma map_expr_inj a b : map InExpr a = map InExpr b -> a = b.
Proof. revert b. induction a as [|x a IH]; intros [|y b] E; try discriminate; auto. cbn in E. injection E as -> E. f_equal; auto. Qed.
Lemma map_part_inj a b : map InPart a = map InPart b -> a = b.
Proof. revert b. induction a as [|x a IH]; intros [|y b] E; try discriminate; auto. cbn in E. injection E as -> E. f_equal; auto. Qed.
Lemma denotes_unique p ins xs xs' : denotes p ins xs -> denotes p ins xs' -> xs = xs'.
Proof.
  intros (exprs & parts & E & C & F & S1 & S2) (exprs' & parts' & E' & C' & F' & S1' & S2').
  rewrite E in E'. apply app_inj_len in E'; [|rewrite !map_length; lia].
  destruct E' as [E1 E2]. apply map_expr_inj in E1. apply map_part_inj in E2. subst exprs' parts'.
  apply (slots_unique (types_buffer p)); auto. intros k Nk.
  destruct (in_dec N.eq_dec (field_number k) (types_buffer p)) as [H|H].
  - eapply stores_unique; eauto.
  - now rewrite (of_kind_none k _ _ F H), (of_kind_none k _ _ F' H).
Qed.
Theorem decode_slice_complete p ins xs : denotes p ins xs ->
  exists b, decode_slice p ins = Ok b /\ b_items b = xs.
Proof.
  intros D. enough (exists b, decode_slice p ins = Ok b) as [b E].
  { exists b. split; auto. apply decode_slice_ok in E. destruct E as [E _]. eapply denotes_unique; eauto. }
  destruct D as (exprs & parts & E & C & F & S1 & S2). unfold decode_slice.
  rewrite (proj2 (split_inputs_iff p ins (map InExpr exprs) parts)) by auto. cbn [rbind].
  destruct (decode_loop_runs p parts (map InExpr exprs) (S (length (types_buffer p)))) with (i := 0) (seen := @nil kind)
    (b := mkBuilder (repeat (@None (option value)) (length (types_buffer p))) []) (last := zero) (ins := map InExpr exprs)
    as [[[seen b] ins''] El].
  - clear - F. induction F as [|t x T xs H F IH]; constructor; auto.
    destruct H as [[-> _]|[[-> _]|(v & -> & _)]]; unfold good_byte; eauto.
  - intros k Hk. specialize (S1 k Hk).
    assert (G : Forall (good k) (p :: parts)).
    { apply Forall_forall. intros c Hc. unfold good. intros ->. cbn in S1. destruct S1 as [S1 _]. now apply S1. }
    split; auto. destruct (of_kind_vals k xs) as [cvs Ek]. rewrite Ek in S1. exists cvs. split.
    + apply (all_values_stores p parts (map InExpr exprs) exprs); auto.
    + rewrite <- (sel_length (field_number k) (types_buffer p) xs) by (eapply Forall2_length; eauto).
      rewrite (sel_of_kind k _ _ F), Ek, !map_length. reflexivity.
  - apply linv_start.
  - lia.
  - unfold zero in El. rewrite El. cbn [rbind].
    apply (decode_loop_ok p parts (map InExpr exprs)) in El; [|apply linv_start]. destruct El as [last L].
    assert (In_seen : forall k, In (field_number k) (types_buffer p) <-> In k seen).
    { intros k. split; [|apply (li_in _ _ _ _ _ _ _ _ L)]. intros H. apply In_nth_error in H. destruct H as [j Hj].
      assert (j < length (types_buffer p)) by (apply nth_error_Some; congruence).
      pose proof (field_small k). destruct (li_before _ _ _ _ _ _ _ _ L j _ H Hj) as [|[|(k' & Ek & Hk)]]; try lia.
      apply field_inj in Ek. now subst. }
    assert (Ei : ins'' = []).
    { destruct (in_dec kind_eq_dec KExprQuote seen) as [H|H]; [apply (li_ins' _ _ _ _ _ _ _ _ L H)|].
      rewrite (li_ins _ _ _ _ _ _ _ _ L H). specialize (S2 KExprQuote). cbn in S2. destruct exprs; auto.
      discriminate S2. intros H'. apply H. now apply (In_seen KExprQuote). }
    subst ins''. rewrite (proj2 (unused_iff p [] seen)); [eauto|].
    intros k Hk. destruct (proj1 (stores_nothing k p exprs)) as (A1 & A2 & A3); auto.
    apply S2. intros H. apply Hk. now apply In_seen.
Qed.

(** ** The encoder *)

Definition present {A} (vs : list (option A)) : list A :=
  flat_map (fun o => match o with Some v => [v] | None => [] end) vs.
(** what a value adds to the field of its type *)
Definition enc_raw (k : kind) (v : cval k) (last : ObjectId) : list (raw k) :=
  match k return cval k -> list (raw k) with
  | KObjectId => fun v => [(sub64 (internal_high64 v) (internal_high64 last), sub64 (internal_low64 v) (internal_low64 last))]
  | KInt32 | KInt64 | KFloat32 | KFloat64 | KBool | KText | KBytes => fun v => [v]
  | KDType => fun v => [Z.of_N (type_id v)]
  | KUnit | KExprQuote => fun _ => []
  end v.
Definition next_last (k : kind) (v : cval k) (last : ObjectId) : ObjectId :=
  match k return cval k -> ObjectId with KObjectId => fun v => v | _ => fun _ => last end v.
Definition enc_inputs (k : kind) (v : cval k) : list input :=
  match k return cval k -> list input with KExprQuote => fun e => [InExpr e] | _ => fun _ => [] end v.
Fixpoint enc_list (k : kind) (vs : list (cval k)) (last : ObjectId) : list (raw k) :=
  match vs with
  | [] => []
  | v :: r => enc_raw k v last ++ enc_list k r (next_last k v last)
  end.
Definition end_last (k : kind) (vs : list (cval k)) (last : ObjectId) : ObjectId :=
  fold_left (fun l v => next_last k v l) vs last.

Definition same_ids (c : compact) : Prop := length (c_hi c) = length (c_lo c).
Lemma add_element_spec k v c last : same_ids c ->
  let '(c', ins, n, last') := add_element k v c last in
  same_ids c' /\ values_of k c' = values_of k c ++ enc_raw k v last /\
  (forall k', k' <> k -> values_of k' c' = values_of k' c) /\
  ins = enc_inputs k v /\ last' = next_last k v last /\ (n = 0%N -> c' = c).
Proof.
  destruct c as [tb n hi lo i32 i64 f32 f64 bl tx by_ dt]. unfold same_ids. cbn [c_hi c_lo].
  intros S0. unfold add_element.
  assert (A : forall (a b : list N) x y, length a = length b -> combine (a ++ [x]) (b ++ [y]) = combine a b ++ [(x, y)]).
  { induction a as [|x a IH]; intros [|y b] x' y' L; try discriminate; auto. cbn. f_equal. apply IH. now injection L. }
  assert (B : forall (a : list N), (N.of_nat (length a) + 1 <> 0)%N) by (intros; lia).
  destruct k; cbn [c_hi c_lo values_of enc_raw enc_inputs next_last c_i32 c_i64 c_f32 c_f64 c_bool c_text c_bytes c_dtype];
    rewrite ?app_nil_r; repeat split; auto;
    try (intros k' N1; destruct k'; try reflexivity; congruence); try discriminate.
  - rewrite !app_length. cbn. lia.
  - intros H. now destruct (B v).
  - intros H. now destruct (B v).
Qed.

Definition cs_of (e : enc) : list compact := e_main e :: e_parts e ++ [e_extra e].
Definition flds (k : kind) (cs : list compact) : list (raw k) := concat (map (values_of k) cs).
Record einv (e : enc) : Prop := {
  ei_same : Forall same_ids (cs_of e);
  ei_main : e_in_extra e = false -> e_parts e = [] /\ e_extra e = empty_compact;
  ei_zero : e_size e = 0%N -> e_extra e = empty_compact
}.
Lemma flds_app k a b : flds k (a ++ b) = flds k a ++ flds k b.
Proof. unfold flds. now rewrite map_app, concat_app. Qed.
Lemma flds_empty k : flds k [empty_compact] = [].
Proof. now destruct k. Qed.
Lemma finalize_spec e : einv e ->
  let e' := finalize_block e in
  einv e' /\ e_extra e' = empty_compact /\ (forall k, flds k (cs_of e') = flds k (cs_of e)) /\ e_types e' = e_types e /\
  e_inputs e' = e_inputs e /\ e_last e' = e_last e.
Proof.
  intros [H1 H2 H3]. unfold finalize_block. destruct (e_in_extra e) eqn:X; cbn [e_types e_main e_extra e_in_extra e_inputs e_parts e_size e_last].
  - repeat split; auto.
    + unfold cs_of in *; cbn [e_types e_main e_extra e_in_extra e_inputs e_parts e_size e_last]. inversion H1; subst. constructor; auto. apply Forall_app in H5. destruct H5 as [A B].
      apply Forall_app. split; [apply Forall_app; auto|]. constructor; auto. reflexivity.
    + discriminate.
    + intros k. unfold cs_of; cbn [e_main e_parts e_extra].
      change (e_main e :: (e_parts e ++ [e_extra e]) ++ [empty_compact]) with ((e_main e :: e_parts e ++ [e_extra e]) ++ [empty_compact]).
      rewrite flds_app, flds_empty, app_nil_r. reflexivity.
  - destruct (H2 eq_refl) as [P E]. repeat split; auto; discriminate.
Qed.
Lemma add_value_spec limit k i v e : einv e ->
  let e' := add_value limit k i v e in
  einv e' /\ flds k (cs_of e') = flds k (cs_of e) ++ enc_raw k v (e_last e) /\
  (forall k', k' <> k -> flds k' (cs_of e') = flds k' (cs_of e)) /\
  e_types e' = set_nth i (field_number k) (e_types e) /\
  e_inputs e' = e_inputs e ++ enc_inputs k v /\ e_last e' = next_last k v (e_last e).
Proof.
  intros Hi. pose proof Hi as [H1 H2 H3]. cbv zeta. unfold add_value.
  pose proof (add_element_spec k v (if e_in_extra e then e_extra e else e_main e) (e_last e)) as A.
  destruct (add_element k v (if e_in_extra e then e_extra e else e_main e) (e_last e)) as [[[c ins] n] last].
  assert (Sc : same_ids (if e_in_extra e then e_extra e else e_main e)).
  { unfold cs_of in H1. inversion H1; subst. destruct (e_in_extra e); auto. apply Forall_app in H5.
    destruct H5 as [_ B]. now inversion B. }
  destruct (A Sc) as (A1 & A2 & A3 & -> & -> & A6). clear A.
  set (e1 := mkEnc _ _ _ _ _ _ _ _).
  assert (E1 : einv e1 /\ flds k (cs_of e1) = flds k (cs_of e) ++ enc_raw k v (e_last e) /\
               (forall k', k' <> k -> flds k' (cs_of e1) = flds k' (cs_of e))).
  { unfold e1. unfold cs_of in *. destruct (e_in_extra e) eqn:X; cbn [e_types e_main e_extra e_in_extra e_inputs e_parts e_size e_last].
    - split; [constructor; unfold cs_of; cbn [e_types e_main e_extra e_in_extra e_inputs e_parts e_size e_last]|split].
      + inversion H1; subst. constructor; auto. apply Forall_app in H5. destruct H5 as [B _].
        apply Forall_app. split; auto.
      + discriminate.
      + intros Z0. rewrite (A6 ltac:(lia)). apply H3. lia.
      + change (e_main e :: e_parts e ++ [c]) with ((e_main e :: e_parts e) ++ [c]).
        change (e_main e :: e_parts e ++ [e_extra e]) with ((e_main e :: e_parts e) ++ [e_extra e]).
        rewrite !flds_app. unfold flds at 2 4. cbn [map concat]. rewrite !app_nil_r, A2. now rewrite app_assoc.
      + intros k' N1.
        change (e_main e :: e_parts e ++ [c]) with ((e_main e :: e_parts e) ++ [c]).
        change (e_main e :: e_parts e ++ [e_extra e]) with ((e_main e :: e_parts e) ++ [e_extra e]).
        rewrite !flds_app. f_equal. unfold flds. cbn. now rewrite A3.
    - destruct (H2 eq_refl) as [P E]. rewrite P, E in *. cbn [app] in *. 
      split; [constructor; unfold cs_of; cbn [e_types e_main e_extra e_in_extra e_inputs e_parts e_size e_last]; auto|split].
      + constructor; auto. now inversion H1.
      + unfold flds. cbn [map concat]. rewrite A2, !app_nil_r.
        replace (values_of k empty_compact) with (@nil (raw k)) by (now destruct k). now rewrite !app_nil_r.
      + intros k' N1. unfold flds. cbn. now rewrite A3. }
  destruct E1 as (B1 & B2 & B3).
  destruct (limit <? e_size e1)%N.
  - destruct (finalize_spec e1 B1) as (C1 & _ & C2 & C3 & C4 & C5).
    rewrite C3, C4, C5. split; auto. rewrite (C2 k), B2. split; auto. split; [intros k' N1; rewrite C2; auto|].
    cbn. rewrite field_scalar. auto.
  - repeat (split; [auto; fail|]). cbn. rewrite ?field_scalar. repeat split; auto.
Qed.

Lemma present_none {A} (vs : list (option A)) : present (None :: vs) = present vs.
Proof. reflexivity. Qed.
Lemma add_array_spec limit k vs : forall i e, einv e ->
  let e' := add_array limit k i vs e in
  einv e' /\ flds k (cs_of e') = flds k (cs_of e) ++ enc_list k (present vs) (e_last e) /\
  (forall k', k' <> k -> flds k' (cs_of e') = flds k' (cs_of e)) /\
  length (e_types e') = length (e_types e) /\
  (forall j t, nth_error (e_types e) j = Some t ->
     nth_error (e_types e') j = Some (match nth_error vs (j - i) with
                                      | Some (Some _) => if i <=? j then field_number k else t
                                      | _ => t end)) /\
  e_inputs e' = e_inputs e ++ flat_map (enc_inputs k) (present vs) /\
  e_last e' = end_last k (present vs) (e_last e).
Proof.
  induction vs as [|[v|] vs IH]; intros i e Hi; cbv zeta.
  - cbn [add_array present flat_map enc_list end_last fold_left]. rewrite !app_nil_r.
    split; [auto|]. do 3 (split; [auto|]). split; [|auto]. intros j t Hj. rewrite Hj. now destruct (j - i).
  - cbn [add_array]. destruct (add_value_spec limit k i v e Hi) as (A1 & A2 & A3 & A4 & A5 & A6).
    destruct (IH (S i) _ A1) as (B1 & B2 & B3 & B4 & B5 & B6 & B7). split; auto.
    change (present (Some v :: vs)) with (v :: present vs). cbn [enc_list flat_map end_last fold_left].
    rewrite B2, A2, A6, B6, A5, B7, A6, B4, A4, set_nth_length, <- !app_assoc.
    split; auto. split; [intros k' N1; rewrite B3, A3; auto|]. split; auto. split; auto.
    intros j t Hj.
    rewrite (B5 j (if i =? j then field_number k else t)).
    2: { rewrite A4, set_nth_nth, Hj. now destruct (i =? j). }
    destruct (Nat.eqb_spec i j) as [<-|N1].
    + rewrite Nat.sub_diag. replace (i - S i) with 0 by lia. cbn [nth_error].
      destruct vs as [|[w|] vs]; cbn [nth_error]; rewrite ?Nat.leb_refl; auto.
      destruct (Nat.leb_spec (S i) i); [lia|auto].
    + destruct (Nat.leb_spec i j).
      * replace (j - i) with (S (j - S i)) by lia. cbn [nth_error].
        destruct (nth_error vs (j - S i)) as [[w|]|]; auto. destruct (Nat.leb_spec (S i) j); first [reflexivity|lia].
      * replace (j - i) with 0 by lia. replace (j - S i) with 0 by lia. cbn [nth_error].
        destruct vs as [|[w|] vs]; auto. destruct (Nat.leb_spec (S i) j); first [reflexivity|lia].
  - cbn [add_array]. rewrite present_none. destruct (IH (S i) e Hi) as (B1 & B2 & B3 & B4 & B5 & B6 & B7).
    do 4 (split; [auto|]). split; [|auto]. intros j t Hj. rewrite (B5 j t Hj).
    destruct (Nat.leb_spec i j).
    + destruct (Nat.eq_dec i j) as [<-|N1].
      * rewrite Nat.sub_diag. cbn [nth_error]. destruct (nth_error vs (i - S i)) as [[w|]|]; auto.
        destruct (Nat.leb_spec (S i) i); [lia|auto].
      * replace (j - i) with (S (j - S i)) by lia. cbn [nth_error].
        destruct (nth_error vs (j - S i)) as [[w|]|]; auto. destruct (Nat.leb_spec (S i) j); first [reflexivity|lia].
    + replace (j - i) with 0 by lia. cbn [nth_error].
      destruct (nth_error vs (j - S i)) as [[w|]|]; auto. destruct (Nat.leb_spec (S i) j); first [reflexivity|lia].
Qed.

Notation array := {k : kind & list (option (cval k))} (only parsing).
Fixpoint first_value (arrs : list array) (i : nat) : option value :=
  match arrs with
  | [] => None
  | a :: r => match value_in a i with Some v => Some v | None => first_value r i end
  end.
Lemma first_value_in arrs i v : first_value arrs i = Some v -> exists a, In a arrs /\ value_in a i = Some v.
Proof.
  induction arrs as [|a r IH]; cbn; [discriminate|]. destruct (value_in a i) as [w|] eqn:E.
  - intros H. exists a. split; auto. congruence.
  - intros H. destruct (IH H) as (b & Hb & Ev). eauto.
Qed.
Lemma first_value_none arrs i : first_value arrs i = None <-> forall a, In a arrs -> value_in a i = None.
Proof.
  induction arrs as [|a r IH]; cbn; [split; auto; intros _ a []|]. destruct (value_in a i) as [w|] eqn:E.
  - split; [discriminate|]. intros H. rewrite H in E by auto. discriminate.
  - rewrite IH. split; [intros H b [<-|]; auto|auto].
Qed.
Lemma value_in_kind (a : array) i v : value_in a i = Some v -> projT1 v = projT1 a.
Proof.
  destruct a as [k vs]. cbn. destruct (nth_error vs i) as [[w|]|]; try discriminate. intros E. injection E as <-. reflexivity.
Qed.
Lemma enc_list_indep k vs : k <> KObjectId -> forall l l', enc_list k vs l = enc_list k vs l'.
Proof.
  intros N1. induction vs as [|v vs IH]; intros l l'; auto. cbn [enc_list].
  f_equal; [now destruct k|]. apply IH.
Qed.
Lemma end_last_other k vs : k <> KObjectId -> forall l, end_last k vs l = l.
Proof. intros N1. induction vs as [|v vs IH]; intros l; auto. unfold end_last in *. cbn. rewrite IH. now destruct k. Qed.
Lemma enc_inputs_other k vs : k <> KExprQuote -> flat_map (enc_inputs k) vs = [].
Proof. intros N1. induction vs as [|v vs IH]; auto. cbn. rewrite IH. now destruct k. Qed.
Lemma enc_inputs_expr vs : flat_map (enc_inputs KExprQuote) vs = map InExpr vs.
Proof. induction vs as [|v vs IH]; cbn; auto. Qed.

Definition kinds (arrs : list array) : list kind := map (@projT1 _ _) arrs.
Lemma fold_spec limit arrs : NoDup (kinds arrs) -> forall e, einv e ->
  (forall k, In k (kinds arrs) -> flds k (cs_of e) = []) ->
  (In KObjectId (kinds arrs) -> e_last e = zero) ->
  (forall i a a' v v', In a arrs -> In a' arrs -> value_in a i = Some v -> value_in a' i = Some v' -> projT1 a = projT1 a') ->
  let e' := fold_left (fun e '(existT _ k vs) => add_array limit k 0 vs e) arrs e in
  einv e' /\
  (forall k vs, In (existT _ k vs) arrs -> flds k (cs_of e') = enc_list k (present vs) zero) /\
  (forall k, ~ In k (kinds arrs) -> flds k (cs_of e') = flds k (cs_of e)) /\
  length (e_types e') = length (e_types e) /\
  (forall j t, nth_error (e_types e) j = Some t ->
     nth_error (e_types e') j = Some (match first_value arrs j with Some v => field_number (projT1 v) | None => t end)) /\
  (forall vs, In (existT _ KExprQuote vs) arrs -> e_inputs e' = e_inputs e ++ map InExpr (present vs)) /\
  (~ In KExprQuote (kinds arrs) -> e_inputs e' = e_inputs e).
Proof.
  induction arrs as [|[k vs] arrs IH]; intros ND e Hi H0 Hl Hd; cbv zeta.
  - cbn [fold_left]. split; [auto|]. split; [intros k vs []|]. do 2 (split; [auto|]).
    split; [intros j t Hj; now rewrite Hj|]. split; [intros vs []|auto].
  - cbn [fold_left]. inversion ND as [|? ? Nk ND']; subst.
    destruct (add_array_spec limit k vs 0 e Hi) as (A1 & A2 & A3 & A4 & A5 & A6 & A7).
    destruct (IH ND' _ A1) as (B1 & B2 & B3 & B4 & B5 & B6 & B7).
    + intros k' Hk'. rewrite A3 by (intros ->; contradiction). apply H0. now right.
    + intros Hk'. rewrite A7, end_last_other by (intros ->; contradiction). apply Hl. now right.
    + intros i a a' v v' Ha Ha'. apply Hd; now right.
    + split; [auto|]. split; [|split; [|split; [|split; [|split]]]].
      * intros k' vs' [E|Hk].
        -- assert (k' = k) by (now inversion E). subst k'.
           apply Eqdep_dec.inj_pair2_eq_dec in E; [|apply kind_eq_dec]. subst vs'.
           rewrite (B3 k Nk), A2, (H0 k) by (now left). cbn [app].
           destruct (kind_eq_dec k KObjectId) as [->|No]; [|now apply enc_list_indep].
           rewrite Hl by (now left). reflexivity.
        -- now apply B2.
      * intros k' Hk'. rewrite B3 by (intros H; apply Hk'; now right).
        apply A3. intros ->. apply Hk'. now left.
      * now rewrite B4, A4.
      * intros j t Hj. rewrite (B5 j _ (A5 j t Hj)). cbn [first_value value_in]. rewrite Nat.sub_0_r.
        destruct (nth_error vs j) as [[v|]|] eqn:Ev; auto. cbn [Nat.leb projT1 val].
        destruct (first_value arrs j) as [w|] eqn:Ew; auto.
        destruct (first_value_in _ _ _ Ew) as (a & Ha & Hw).
        assert (Ek : k = projT1 a).
        { apply (Hd j (existT _ k vs) a (val k v) w); auto; [now left|now right|cbn; now rewrite Ev]. }
        rewrite (value_in_kind _ _ _ Hw), <- Ek. reflexivity.
      * intros vs' [E|Hk].
        -- assert (k = KExprQuote) by (now inversion E). subst k.
           apply Eqdep_dec.inj_pair2_eq_dec in E; [|apply kind_eq_dec]. subst vs'.
           rewrite B7 by auto. now rewrite A6, enc_inputs_expr.
        -- rewrite (B6 vs' Hk), A6, enc_inputs_other, app_nil_r; auto.
           intros ->. apply Nk. unfold kinds. now apply (in_map (@projT1 _ _)) in Hk.
      * intros H. rewrite B7 by (intros H'; apply H; now right). rewrite A6, enc_inputs_other, app_nil_r; auto.
        intros ->. apply H. now left.
Qed.

(** what the encoder wrote is what is stored *)
Lemma sub_add64 a b : (a < 2 ^ 64)%N -> (b < 2 ^ 64)%N -> ((b + sub64 a b) mod 2 ^ 64 = a)%N.
Proof.
  intros Ha Hb. unfold sub64. rewrite N.add_mod_idemp_r by discriminate.
  replace (b + (a + 2 ^ 64 - b))%N with (a + 1 * 2 ^ 64)%N by lia.
  rewrite N.mod_add by discriminate. now apply N.mod_small.
Qed.
Lemma wf_bounds o : wf o -> (internal_high64 o < 2 ^ 64)%N /\ (internal_low64 o < 2 ^ 64)%N.
Proof. intros W. split; [apply (high64_lt o W)|apply W]. Qed.
Lemma enc_list_ids vs : forall last, wf last -> Forall wf vs ->
  ids_from (internal_high64 last) (internal_low64 last) (enc_list KObjectId vs last) = map (val KObjectId) vs.
Proof.
  induction vs as [|v vs IH]; intros last W F; auto. inversion F; subst.
  destruct (wf_bounds _ W), (wf_bounds v); auto.
  cbn [enc_list enc_raw app ids_from next_last map]. rewrite !sub_add64 by auto.
  rewrite (unsafe_create_roundtrip v) by auto. f_equal. now apply IH.
Qed.
Lemma enc_list_same k (f : cval k -> raw k) vs : (forall v l, enc_raw k v l = [f v]) -> forall l,
  enc_list k vs l = map f vs.
Proof. intros H. induction vs as [|v vs IH]; intros l; auto. cbn [enc_list map]. rewrite H. cbn. f_equal. apply IH. Qed.
Lemma stores_encoded k cs exprs vs :
  Forall same_ids cs -> flds k cs = enc_list k vs zero ->
  (k = KExprQuote -> exprs = map (fun v => match v with existT _ KExprQuote e => e | _ => 0%N end) (map (val k) vs)) ->
  (forall v, In v vs -> valid_value (val k v)) ->
  stores k cs exprs (map (val k) vs).
Proof.
  intros Sm E Ee V. destruct k; cbn [stores]; auto; unfold flds in E.
  - assert (G : forall c, In c cs -> length (c_hi c) = length (c_lo c)) by (apply Forall_forall; exact Sm).
    split; auto. rewrite <- combine_concat, E by auto. symmetry. apply (enc_list_ids vs zero).
    + apply unsafe_create_wf.
    + apply Forall_forall. exact V.
  - rewrite (enc_list_same KInt32 (fun x => x)), map_id in E by auto. cbn [values_of] in E. now rewrite <- E.
  - rewrite (enc_list_same KInt64 (fun x => x)), map_id in E by auto. cbn [values_of] in E. now rewrite <- E.
  - rewrite (enc_list_same KFloat32 (fun x => x)), map_id in E by auto. cbn [values_of] in E. now rewrite <- E.
  - rewrite (enc_list_same KFloat64 (fun x => x)), map_id in E by auto. cbn [values_of] in E. now rewrite <- E.
  - rewrite (enc_list_same KBool (fun x => x)), map_id in E by auto. cbn [values_of] in E. now rewrite <- E.
  - rewrite (enc_list_same KText (fun x => x)), map_id in E by auto. cbn [values_of] in E. now rewrite <- E.
  - rewrite (enc_list_same KBytes (fun x => x)), map_id in E by auto. cbn [values_of] in E. now rewrite <- E.
  - rewrite (Ee eq_refl). f_equal. rewrite map_map. symmetry. apply map_id.
  - rewrite (enc_list_same KDType (fun v => Z.of_N (type_id v))) in E by auto. cbn [values_of] in E.
    exists vs. split; auto. change (concat (map c_dtype cs) = map (fun v => Z.of_N (type_id v)) vs) in E. rewrite E. clear.
    induction vs as [|v vs IH]; constructor; auto. pose proof (type_id_lt v). apply Z.mod_small. lia.
Qed.

Definition content (s : dslice) (i : nat) : slot :=
  match first_value (ds_values s) i with
  | Some v => Some (Some v)
  | None => match nth_error (ds_types s) i with Some TUnset => None | _ => Some None end
  end.
Lemma holds_iff s i x : wf_slice s -> (holds s i x <-> x = content s i).
Proof.
  intros W. unfold holds, content. split.
  - intros [(a & v & Ha & Hv & ->)|[Hn H]].
    + destruct (first_value (ds_values s) i) as [w|] eqn:E.
      * destruct (first_value_in _ _ _ E) as (b & Hb & Hw).
        assert (Ek := ws_disjoint s W a b i v w Ha Hb Hv Hw).
        assert (Eab : a = b).
        { pose proof (ws_kinds s W) as ND. clear - ND Ek Ha Hb.
          induction (ds_values s) as [|c l IH]; [destruct Ha|]. cbn in ND. apply NoDup_cons_iff in ND. destruct ND as [Nk ND'].
          destruct Ha as [<-|Ha], Hb as [<-|Hb]; auto.
          - destruct Nk. rewrite Ek. now apply in_map.
          - destruct Nk. rewrite <- Ek. now apply in_map. }
        subst b. congruence.
      * rewrite (proj1 (first_value_none _ _) E a Ha) in Hv. discriminate.
    + apply first_value_none in Hn. rewrite Hn. destruct H as [[-> ->]|[H ->]]; auto.
      destruct (nth_error (ds_types s) i) as [[]|]; auto. congruence.
  - intros ->. destruct (first_value (ds_values s) i) as [w|] eqn:E.
    + destruct (first_value_in _ _ _ E) as (b & Hb & Hw). left. eauto.
    + right. split; [now apply first_value_none|].
      destruct (nth_error (ds_types s) i) as [[]|]; auto; right; split; auto; congruence.
Qed.
Lemma initial_types_nth s i : wf_slice s -> i < ds_size s ->
  nth_error (initial_types s) i =
  Some (match nth_error (ds_types s) i with Some TUnset => 255%N | _ => 254%N end).
Proof.
  intros W L. unfold initial_types. destruct (ds_types s) as [|t ts] eqn:E.
  - rewrite nth_error_repeat by auto. now destruct i.
  - rewrite nth_error_map.
    destruct (ws_types s W) as [H|H]; rewrite E in H; [discriminate|].
    destruct (nth_error (t :: ts) i) as [[]|] eqn:Ei; auto. apply nth_error_None in Ei. lia.
Qed.
Lemma initial_types_length s : wf_slice s -> length (initial_types s) = ds_size s.
Proof.
  intros W. unfold initial_types. destruct (ds_types s) eqn:E; [apply repeat_length|].
  rewrite map_length. destruct (ws_types s W) as [H|H]; rewrite E in H; [discriminate|auto].
Qed.
Lemma of_kind_present k xs (vs : list (option (cval k))) :
  Forall2 (fun x ov => match ov with
                       | Some v => x = Some (Some (val k v))
                       | None => forall w, x = Some (Some w) -> projT1 w <> k
                       end) xs vs -> of_kind k xs = map (val k) (present vs).
Proof.
  induction 1 as [|x ov xs vs H F IH]; auto. unfold of_kind in *. cbn [flat_map present]. rewrite IH.
  destruct ov as [v|].
  - subst x. cbn [projT1 val]. destruct (kind_eq_dec k k); [reflexivity|congruence].
  - destruct x as [[w|]|]; auto. destruct (kind_eq_dec (projT1 w) k) as [E|]; auto.
    exfalso. exact (H w eq_refl E).
Qed.
Lemma array_in k s : In k (kinds (ds_values s)) -> exists vs, In (existT _ k vs) (ds_values s).
Proof. intros H. apply in_map_iff in H. destruct H as ([k' vs] & <- & H). eauto. Qed.

Theorem encode_denotes limit s : wf_slice s ->
  let '(p, ins) := encode_slice limit s in denotes p ins (map (content s) (seq 0 (ds_size s))).
Proof.
  intros W. unfold encode_slice.
  set (e0 := mkEnc (initial_types s) empty_compact empty_compact false [] [] 0 (unsafe_create 0 0)).
  assert (I0 : einv e0).
  { constructor; auto. unfold cs_of. repeat constructor. }
  assert (Z0 : forall k, flds k (cs_of e0) = []) by (intros k; now destruct k).
  destruct (fold_spec limit (ds_values s) (ws_kinds s W) e0 I0) as (A1 & A2 & A3 & A4 & A5 & A6 & A7); auto.
  { intros i a a' v v'. apply (ws_disjoint s W). }
  set (e := fold_left _ (ds_values s) e0) in *.
  set (e2 := if e_in_extra e && (0 <? e_size e)%N then finalize_block e else e).
  assert (B : Forall same_ids (e_main e2 :: e_parts e2) /\
              (forall k, flds k (e_main e2 :: e_parts e2) = flds k (cs_of e)) /\
              e_types e2 = e_types e /\ e_inputs e2 = e_inputs e).
  { assert (C : einv e2 /\ e_extra e2 = empty_compact /\ (forall k, flds k (cs_of e2) = flds k (cs_of e)) /\
                e_types e2 = e_types e /\ e_inputs e2 = e_inputs e).
    { unfold e2. destruct (e_in_extra e && (0 <? e_size e)%N) eqn:X.
      - destruct (finalize_spec e A1) as (F1 & F2 & F3 & F4 & F5 & _). auto.
      - split; [exact A1|]. split; [|auto]. apply andb_false_iff in X. destruct A1 as [G1 G2 G3].
        destruct X as [X|X]; [now apply G2|]. apply G3. apply N.ltb_ge in X. lia. }
    destruct C as ([C1 _ _] & C2 & C3 & C4 & C5). unfold cs_of in C1, C3. rewrite C2 in C1, C3.
    change (e_main e2 :: e_parts e2 ++ [empty_compact]) with ((e_main e2 :: e_parts e2) ++ [empty_compact]) in C1, C3.
    split; [apply Forall_app in C1; tauto|]. split; [|auto]. intros k. rewrite <- C3, flds_app, flds_empty.
    now rewrite app_nil_r. }
  clearbody e2. destruct B as (B1 & B2 & B3 & B4).
  set (p := mkCompact (e_types e2) _ _ _ _ _ _ _ _ _ _ _).
  set (xs := map (content s) (seq 0 (ds_size s))).
  assert (P1 : forall k, values_of k p = values_of k (e_main e2)) by (intros k; now destruct k).
  assert (P2 : forall k, flds k (p :: e_parts e2) = flds k (cs_of e)).
  { intros k. rewrite <- B2. unfold flds. cbn [map concat]. now rewrite P1. }
  assert (P3 : Forall same_ids (p :: e_parts e2)) by (inversion B1; subst; constructor; auto).
  assert (Nx : forall i x, nth_error xs i = Some x -> i < ds_size s /\ x = content s i).
  { intros i x H. assert (L : i < length xs) by (apply nth_error_Some; congruence).
    unfold xs in *. rewrite map_length, seq_length in L. split; auto.
    rewrite nth_error_map in H. destruct (nth_error (seq 0 (ds_size s)) i) as [j|] eqn:E; [|discriminate].
    cbn in H. assert (Ej : j = i).
    { apply nth_error_nth with (d := 0) in E. rewrite seq_nth in E by auto. lia. }
    congruence. }
  assert (L0 : length (initial_types s) = ds_size s) by now apply initial_types_length.
  assert (K : forall k, exists vs, of_kind k xs = map (val k) vs /\ flds k (cs_of e) = enc_list k vs zero /\
             (forall v, In v vs -> valid_value (val k v)) /\
             (k = KExprQuote -> e_inputs e = map InExpr (map (fun v => match v with existT _ KExprQuote e => e | _ => 0%N end) (map (val k) vs)))).
  { intros k. destruct (in_dec kind_eq_dec k (kinds (ds_values s))) as [Hk|Hk].
    - destruct (array_in k s Hk) as [vs Hv]. exists (present vs). split; [|split; [now apply A2|split]].
      + apply of_kind_present. apply Forall2_nth.
        * unfold xs. rewrite map_length, seq_length. symmetry. eapply ws_sizes; eauto.
        * intros i x ov Hx Hov. destruct (Nx i x Hx) as [Hi ->].
          destruct ov as [v|].
          -- symmetry. apply holds_iff; auto. left. exists (existT _ k vs), (val k v). cbn. rewrite Hov. auto.
          -- intros w Hw Ek. symmetry in Hw. apply holds_iff in Hw; auto.
             destruct Hw as [(a & v & Ha & Hva & E)|[_ [[_ E]|[_ E]]]]; try discriminate.
             assert (v = w) by congruence. subst v.
             pose proof (value_in_kind _ _ _ Hva) as Eka. rewrite Ek in Eka.
             assert (a = existT _ k vs).
             { pose proof (ws_kinds s W) as ND. clear - ND Eka Ha Hv.
               induction (ds_values s) as [|c l IH]; [destruct Ha|]. cbn in ND. apply NoDup_cons_iff in ND. destruct ND as [Nk ND'].
               destruct Ha as [<-|Ha], Hv as [Hv|Hv]; auto.
               - destruct Nk. rewrite <- Eka. now apply (in_map (@projT1 _ _)) in Hv.
               - destruct Nk. subst c. cbn [projT1]. rewrite Eka. now apply in_map. }
             subst a. cbn in Hva. rewrite Hov in Hva. discriminate.
      + intros v Hin. unfold present in Hin. apply in_flat_map in Hin. destruct Hin as ([w|] & Hw & Hin); [|destruct Hin].
        destruct Hin as [<-|[]]. apply In_nth_error in Hw. destruct Hw as [i Hw].
        apply (ws_valid s W (existT _ k vs) i); auto. cbn. now rewrite Hw.
      + intros ->. rewrite (A6 vs Hv). cbn [e0 e_inputs app]. f_equal. rewrite map_map. symmetry. apply map_id.
    - exists []. split; [|split; [rewrite A3 by auto; apply Z0|split; [intros v []|intros ->; now apply A7]]].
      assert (F : forall x, In x xs -> match x with Some (Some w) => projT1 w <> k | _ => True end).
      { intros x Hx. apply In_nth_error in Hx. destruct Hx as [i Hx]. destruct (Nx i x Hx) as [Hi ->].
        unfold content. destruct (first_value (ds_values s) i) as [w|] eqn:E.
        - intros <-. destruct (first_value_in _ _ _ E) as (a & Ha & Hv). apply Hk.
          rewrite (value_in_kind _ _ _ Hv). now apply in_map.
        - now destruct (nth_error (ds_types s) i) as [[]|]. }
      clearbody xs. clear - F. induction xs as [|x xs IH]; auto. unfold of_kind in *. cbn [flat_map].
      rewrite IH by (intros; apply F; now right). specialize (F x (or_introl eq_refl)).
      destruct x as [[w|]|]; auto. now destruct (kind_eq_dec (projT1 w) k). }
  destruct (K KExprQuote) as (exprs & X1 & X2 & X3 & X4). specialize (X4 eq_refl).
  assert (X5 : e_inputs e = map InExpr exprs).
  { etransitivity; [exact X4|]. f_equal. etransitivity; [apply map_map|apply map_id]. }
  clear X4. rename X5 into X4.
  assert (St : forall k, stores k (p :: e_parts e2) exprs (of_kind k xs)).
  { intros k. destruct (K k) as (vs & K1 & K2 & K3 & K4). rewrite K1. apply stores_encoded; auto.
    - now rewrite P2.
    - intros ->. specialize (K4 eq_refl). rewrite X4 in K4. now apply map_expr_inj in K4. }
  exists exprs, (e_parts e2). split; [rewrite B4, X4; reflexivity|]. split; [reflexivity|]. split; [|split].
  - apply Forall2_nth.
    + cbn [types_buffer p]. rewrite B3, A4. unfold xs. rewrite map_length, seq_length. exact L0.
    + intros i t x Ht Hx. destruct (Nx i x Hx) as [Hi ->]. cbn [types_buffer p] in Ht. rewrite B3 in Ht.
      rewrite (A5 i _ (initial_types_nth s i W Hi)) in Ht. injection Ht as <-. unfold announces, content.
      destruct (first_value (ds_values s) i) as [w|]; [right; right; eauto|].
      destruct (nth_error (ds_types s) i) as [[]|]; auto.
  - intros k _. apply St.
  - intros k Hk. apply stores_nothing.
    assert (Ek : of_kind k xs = []).
    { destruct (of_kind k xs) as [|v l] eqn:E; auto. exfalso. apply Hk.
      assert (Hv : In v (of_kind k xs)) by (rewrite E; now left). unfold of_kind in Hv.
      apply in_flat_map in Hv. destruct Hv as ([[w|]|] & Hx & Hv); try destruct Hv.
      destruct (kind_eq_dec (projT1 w) k) as [Ek|]; [|destruct Hv].
      apply In_nth_error in Hx. destruct Hx as [i Hx]. destruct (Nx i _ Hx) as [Hi Ec].
      unfold content in Ec. destruct (first_value (ds_values s) i) as [w'|] eqn:Ef;
        [|destruct (nth_error (ds_types s) i) as [[]|]; discriminate].
      assert (w' = w) by congruence. subst w'.
      pose proof (A5 i _ (initial_types_nth s i W Hi)) as Ht. rewrite Ef in Ht. rewrite Ek in Ht.
      cbn [types_buffer p]. rewrite B3. eapply nth_error_In; eauto. }
    destruct (K k) as (vs & K1 & K2 & K3 & K4). rewrite Ek in K1. destruct vs; [|discriminate].
    cbn [enc_list] in K2. rewrite <- P2 in K2. unfold flds in K2. cbn [map concat] in K2. apply app_eq_nil in K2. destruct K2 as [K2 _].
    split; [intros ->; now inversion P3|]. split; auto. intros ->.
    specialize (K4 eq_refl). rewrite X4 in K4. now apply map_expr_inj in K4.
Qed.

Theorem slice_round_trip limit s : wf_slice s ->
  let '(p, ins) := encode_slice limit s in
  exists b, decode_slice p ins = Ok b /\ b_items b = map (content s) (seq 0 (ds_size s)) /\
    b_ids b = allocations (b_items b).
Proof.
  intros W. pose proof (encode_denotes limit s W) as D. destruct (encode_slice limit s) as [p ins].
  destruct (decode_slice_complete p ins _ D) as (b & E & Eb). exists b. split; auto. split; auto.
  now apply decode_slice_ok in E.
Qed.

(** ** Items *)

Lemma decode_encode_item x rest : (forall v, x = Some v -> valid_value v) ->
  decode_item_proto (fst (encode_item x)) (snd (encode_item x) ++ rest) = Ok (x, rest).
Proof.
  intros V. destruct x as [[k v]|]; [|reflexivity]. specialize (V _ eq_refl). destruct k; cbn in *; try reflexivity.
  - now rewrite unsafe_create_roundtrip.
  - now destruct v.
  - rewrite (proj2 (dtype_from_id_iff _ v)); auto. pose proof (type_id_lt v). apply Z.mod_small. lia.
Qed.
Theorem item_round_trip x : (forall v, x = Some v -> valid_value v) ->
  decode_item (fst (encode_item x)) (snd (encode_item x)) = Ok x.
Proof.
  intros V. unfold decode_item. rewrite <- (app_nil_r (snd (encode_item x))), decode_encode_item by auto. reflexivity.
Qed.
Theorem item_uses_all_inputs p ins x : decode_item p ins = Ok x ->
  (p = PExprQuote /\ exists e, ins = [InExpr e] /\ x = Some (val KExprQuote e)) \/ (p <> PExprQuote /\ ins = []).
Proof.
  unfold decode_item, decode_item_proto. intros E.
  destruct p; cbn in E; try (right; split; [discriminate|]; destruct ins; [reflexivity|discriminate E]).
  - right. split; [discriminate|]. destruct (dtype_from_id _); [|discriminate E]. destruct ins; [reflexivity|discriminate E].
  - left. split; [reflexivity|]. destruct ins as [|[| |] r]; try discriminate E. destruct r; [|discriminate E].
    inversion E. eexists. split; reflexivity.
Qed.
Lemma allocations_app a b : allocations (a ++ b) = allocations a ++ allocations b.
Proof. unfold allocations, of_kind. now rewrite !flat_map_app. Qed.
Lemma vector_from xs : forall pre suf ids rest,
  (forall x v, In x xs -> x = Some v -> valid_value v) -> length suf = length xs -> Forall (eq None) suf ->
  ids = allocations pre ->
  exists b, decode_vector_from (length pre) (map (fun x => fst (encode_item x)) xs)
              (flat_map (fun x => snd (encode_item x)) xs ++ rest) (mkBuilder (pre ++ suf) ids) = Ok (b, rest) /\
    b_items b = pre ++ map Some xs /\ b_ids b = allocations (b_items b).
Proof.
  induction xs as [|x xs IH]; intros pre suf ids rest V L F E; destruct suf as [|y suf]; try discriminate.
  - cbn. eexists. split; [reflexivity|]. cbn. rewrite app_nil_r. auto.
  - cbn [map flat_map decode_vector_from]. rewrite <- app_assoc.
    rewrite decode_encode_item by (intros v; apply V; now left). cbn [rbind].
    inversion F; subst y. cbn [b_items]. rewrite nth_error_mid, insert_app. cbn [upd].
    match goal with |- context [decode_vector_from (S (length pre)) _ _ ?x] => set (b' := x) end.
    assert (Eb : b' = mkBuilder ((pre ++ [Some x]) ++ suf) (allocations (pre ++ [Some x]))).
    { rewrite allocations_app, <- app_assoc, <- E. cbn [app].
      destruct x as [[k o]|]; [|subst b'; cbn; now rewrite app_nil_r].
      destruct k; subst b'; cbn; now rewrite ?app_nil_r. }
    rewrite Eb, (len_snoc pre (Some x)).
    destruct (IH (pre ++ [Some x]) suf (allocations (pre ++ [Some x])) rest) as (b & B1 & B2 & B3); auto.
    + intros z v Hz. apply V. now right.
    + exists b. split; [exact B1|]. rewrite B2, <- app_assoc. cbn. split; auto. rewrite B3, B2, <- app_assoc. reflexivity.
Qed.
Theorem vector_round_trip xs : (forall x v, In x xs -> x = Some v -> valid_value v) ->
  exists b, decode_vector (map (fun x => fst (encode_item x)) xs) (flat_map (fun x => snd (encode_item x)) xs) = Ok b /\
    b_items b = map Some xs /\ b_ids b = allocations (b_items b).
Proof.
  intros V. unfold decode_vector. rewrite map_length.
  destruct (vector_from xs [] (repeat None (length xs)) [] [] V) as (b & B1 & B2 & B3); auto.
  - apply repeat_length.
  - apply Forall_forall. intros y Hy. apply repeat_spec in Hy. auto.
  - cbn [length app] in *. rewrite app_nil_r in B1. rewrite B1. cbn [rbind]. eauto.
Qed.
Lemma decode_item_safe p ins : decode_item p ins <> Crash.
Proof.
  unfold decode_item, decode_item_proto. destruct p; cbn; try (destruct ins; discriminate).
  - destruct (dtype_from_id z); [destruct ins|]; discriminate.
  - destruct ins as [|[e|c|] [|]]; discriminate.
Qed.
