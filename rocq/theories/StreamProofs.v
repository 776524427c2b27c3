(** Streams with chunks behave like logs. *)
From Coq Require Import List Bool PeanoNat Lia.
From Verif Require Import StreamModel StreamSpec.
Import ListNotations.
Local Open Scope nat_scope.

Section Chunks.
  Context {value status : Type}.
  Implicit Types (s : stream value status) (vs : list (list value)).

  (** [vs] has the values of each chunk; [n] slots of the last one are free. *)
  Definition chunks_ok (cs : list (chunk value)) (size : nat) vs (n : nat) : Prop :=
    (vs = [] /\ cs = [] /\ size = 0)
    \/ exists us fl, vs = us ++ [fl]
         /\ cs = map (map Some) us ++ [map Some fl ++ repeat None n]
         /\ size = length fl /\ Forall (fun u => u <> []) us
         /\ length fl + n > 0.

  Definition reader_ok vs (r : reader) (p : nat) : Prop :=
    match r_chunk r with
    | None => next_chunk_index r = 0 /\ offset r = 0 /\ known_size r = 0 /\ p = 0
    | Some k =>
        next_chunk_index r = S k /\ k < length vs
        /\ p = length (concat (firstn k vs)) + offset r
        /\ offset r <= known_size r /\ known_size r <= length (nth k vs [])
    end.

  Lemma chunks_length cs size vs n : chunks_ok cs size vs n -> length cs = length vs.
  Proof.
    intros [[-> [-> _]]|[us [fl [-> [-> _]]]]]; [reflexivity|].
    rewrite !app_length, map_length. reflexivity.
  Qed.

  Lemma chunk_at cs size vs n k :
    chunks_ok cs size vs n -> k < length vs ->
    exists m, nth k cs [] = map Some (nth k vs []) ++ repeat None m
      /\ (S k < length vs -> m = 0)
      /\ (S k = length vs -> size = length (nth k vs []) /\ m = n)
      /\ length (nth k vs []) + m > 0.
  Proof.
    intros [[-> _]|[us [fl [-> [-> [-> [F G]]]]]]] L; [cbn in L; lia|].
    rewrite app_length in L. cbn in L.
    destruct (Nat.eq_dec k (length us)) as [E|E].
    - subst k. exists n.
      rewrite !app_nth2; rewrite ?map_length; try lia.
      replace (length us - length us) with 0 by lia. cbn [nth].
      repeat split; try assumption.
      intros H. rewrite app_length in H. cbn in H. lia.
    - exists 0. rewrite app_nth1 by (rewrite map_length; lia).
      rewrite (app_nth1 us [fl]) by lia.
      rewrite (nth_indep _ [] (map Some [])) by (rewrite map_length; lia).
      rewrite map_nth. cbn [repeat]. rewrite app_nil_r.
      split; [reflexivity|]. split; [reflexivity|]. split.
      + intros H. rewrite app_length in H. cbn in H. lia.
      + assert (K : In (nth k us []) us) by (apply nth_In; lia).
        rewrite Forall_forall in F. specialize (F _ K).
        destruct (nth k us []); [easy|cbn; lia].
  Qed.

  Lemma concat_split k vs :
    k < length vs ->
    length (concat vs)
    = length (concat (firstn k vs)) + length (nth k vs [])
      + length (concat (skipn (S k) vs)).
  Proof.
    revert k. induction vs as [|v vs IH]; intros k L; [cbn in L; lia|].
    destruct k as [|k].
    - cbn [firstn nth skipn concat length]. rewrite app_length. cbn [length]. lia.
    - cbn [firstn nth skipn concat length] in *. rewrite !app_length.
      rewrite (IH k) by lia. cbn [skipn]. lia.
  Qed.

  Lemma concat_last k vs :
    S k = length vs ->
    length (concat vs) = length (concat (firstn k vs)) + length (nth k vs []).
  Proof.
    intros E. rewrite (concat_split k) by lia.
    rewrite skipn_all2 by lia. cbn. lia.
  Qed.

  Lemma nth_error_concat k vs i :
    k < length vs -> i < length (nth k vs []) ->
    nth_error (concat vs) (length (concat (firstn k vs)) + i)
    = nth_error (nth k vs []) i.
  Proof.
    revert k. induction vs as [|v vs IH]; intros k L I; [cbn in L; lia|].
    destruct k as [|k].
    - cbn [firstn nth concat length] in *. now rewrite nth_error_app1 by lia.
    - cbn [firstn nth concat length] in *. rewrite app_length.
      rewrite nth_error_app2 by lia.
      replace (length v + length (concat (firstn k vs)) + i - length v)
        with (length (concat (firstn k vs)) + i) by lia.
      apply IH; [lia|assumption].
  Qed.

  Lemma firstn_succ k vs :
    k < length vs ->
    length (concat (firstn (S k) vs))
    = length (concat (firstn k vs)) + length (nth k vs []).
  Proof.
    revert k. induction vs as [|v vs IH]; intros k L; [cbn in L; lia|].
    destruct k as [|k].
    - cbn. rewrite app_length. cbn. lia.
    - change (firstn (S (S k)) (v :: vs)) with (v :: firstn (S k) vs).
      cbn [firstn concat nth length] in *. rewrite !app_length, IH by lia. lia.
  Qed.

  (** * Readers *)

  Lemma reader_chunk s vs n r p :
    chunks_ok (chunks s) (last_chunk_size s) vs n -> reader_ok vs r p ->
    capacity (chunk_of s r) =
      match r_chunk r with
      | None => 0
      | Some k => capacity (nth k (chunks s) [])
      end.
  Proof. intros _ _. unfold chunk_of. now destruct (r_chunk r). Qed.

  (** [update] finds whether there is more to read. *)
  Lemma update_ok s vs n r p :
    chunks_ok (chunks s) (last_chunk_size s) vs n -> reader_ok vs r p ->
    reader_ok vs (update s r) p
    /\ ((offset (update s r) < known_size (update s r) /\ p < length (concat vs))
        \/ (offset (update s r) = known_size (update s r) /\ p = length (concat vs))).
  Proof.
    intros C R. pose proof (chunks_length _ _ _ _ C) as LC.
    (* The second half of update, for a reader in chunk k. *)
    assert (HALF : forall k off kn,
      k < length vs -> off <= length (nth k vs []) ->
      (off = length (nth k vs []) -> S k = length vs) ->
      p = length (concat (firstn k vs)) + off ->
      let r' := Reader (S k) (Some k) off kn in
      let r2 := Reader (next_chunk_index r') (r_chunk r') (offset r')
        (if next_chunk_index r' =? length (chunks s) then last_chunk_size s
         else capacity (chunk_of s r')) in
      reader_ok vs r2 p
      /\ ((offset r2 < known_size r2 /\ p < length (concat vs))
          \/ (offset r2 = known_size r2 /\ p = length (concat vs)))).
    { intros k off kn K O LAST P. cbn [next_chunk_index r_chunk offset].
      unfold chunk_of. cbn [r_chunk].
      destruct (chunk_at _ _ _ _ k C K) as [m [E1 [E2 [E3 E4]]]].
      destruct (Nat.eqb_spec (S k) (length (chunks s))) as [E|E].
      - rewrite LC in E. destruct (E3 E) as [SZ _]. rewrite SZ.
        pose proof (concat_last k vs E) as T.
        split.
        + cbn. repeat split; try assumption; lia.
        + cbn. destruct (Nat.eq_dec off (length (nth k vs []))); [right|left]; lia.
      - assert (SK : S k < length vs) by lia. rewrite E1, (E2 SK).
        cbn [repeat]. rewrite app_nil_r. unfold capacity. rewrite map_length.
        pose proof (concat_split k vs K) as T.
        assert (off <> length (nth k vs [])) by (intros H; apply LAST in H; lia).
        split; [|left; cbn; lia].
        cbn. repeat split; try assumption; lia. }
    unfold update.
    destruct (r_chunk r) as [k|] eqn:RC.
    - assert (R' := R). unfold reader_ok in R'. rewrite RC in R'.
      destruct R' as [N [K [P [O1 O2]]]].
      destruct (chunk_at _ _ _ _ k C K) as [m [E1 [E2 [E3 E4]]]].
      assert (CO : capacity (chunk_of s r) = length (nth k vs []) + m).
      { unfold chunk_of. rewrite RC, E1. unfold capacity.
        now rewrite app_length, map_length, repeat_length. }
      rewrite CO, N.
      destruct (offset r =? length (nth k vs []) + m) eqn:FULL;
        [apply Nat.eqb_eq in FULL|apply Nat.eqb_neq in FULL].
      + destruct (Nat.ltb_spec (S k) (length (chunks s))) as [MORE|MORE]; cbn [andb].
        * rewrite LC in MORE. assert (m = 0) by now apply E2.
          apply HALF.
          -- assumption.
          -- lia.
          -- intros H0. destruct (chunk_at _ _ _ _ (S k) C MORE) as [m' [F1 [F2 [F3 F4]]]].
             destruct (Nat.eq_dec (S (S k)) (length vs)); [assumption|].
             rewrite F2 in F4 by lia. lia.
          -- rewrite firstn_succ by assumption. lia.
        * destruct r as [nx rc off kn]. cbn in RC, N, P, O1, O2, FULL. subst rc nx.
          apply HALF; try assumption; try lia.
      + rewrite Bool.andb_false_l. destruct r as [nx rc off kn].
        cbn in RC, N, P, O1, O2, FULL. subst rc nx.
        apply HALF; try assumption; try lia.
    - assert (R' := R). unfold reader_ok in R'. rewrite RC in R'.
      destruct R' as [N [O [KN P]]].
      assert (CO : capacity (chunk_of s r) = 0) by (unfold chunk_of; now rewrite RC).
      rewrite CO, N, O. cbn [Nat.eqb andb].
      destruct (Nat.ltb_spec 0 (length (chunks s))) as [MORE|MORE].
      + rewrite LC in MORE. apply HALF; try lia.
        * intros H. destruct (chunk_at _ _ _ _ 0 C MORE) as [m' [F1 [F2 [F3 F4]]]].
          destruct (Nat.eq_dec 1 (length vs)); [assumption|]. rewrite F2 in F4 by lia. lia.
        * cbn. lia.
      + assert (V : vs = []) by (destruct vs; [reflexivity|cbn in LC; lia]).
        subst vs. destruct C as [[_ [CE SZ]]|[us [fl [E _]]]].
        2: { now destruct us. }
        rewrite RC, N. rewrite CE. cbn. rewrite SZ. split.
        * repeat split; auto.
        * right. split; [assumption|lia].
  Qed.

  Lemma read_ref_ok s vs n r p :
    chunks_ok (chunks s) (last_chunk_size s) vs n -> reader_ok vs r p ->
    offset r < known_size r ->
    exists v, nth_error (concat vs) p = Some v
      /\ fst (read_ref s r) = Item v /\ reader_ok vs (snd (read_ref s r)) (S p).
  Proof.
    intros C R L. unfold reader_ok in R.
    destruct (r_chunk r) as [k|] eqn:RC; [|lia].
    destruct R as [N [K [P [O1 O2]]]].
    destruct (chunk_at _ _ _ _ k C K) as [m [E1 [E2 [E3 E4]]]].
    assert (I : offset r < length (nth k vs [])) by lia.
    destruct (nth_error (nth k vs []) (offset r)) as [v|] eqn:V.
    2: { apply nth_error_None in V. lia. }
    exists v. subst p. rewrite nth_error_concat by assumption.
    split; [assumption|]. split.
    - unfold read_ref, chunk_of, get_ref. rewrite RC, E1. cbn [fst].
      rewrite nth_error_app1 by (rewrite map_length; lia).
      now rewrite nth_error_map, V.
    - unfold read_ref, reader_ok. cbn. rewrite RC. repeat split; try assumption; lia.
  Qed.

  (** A reader reads the log. *)
  Lemma try_read_ok s vs n r p :
    chunks_ok (chunks s) (last_chunk_size s) vs n -> reader_ok vs r p ->
    fst (try_read s r)
    = match nth_error (concat vs) p with
      | Some v => Item v
      | None => match s_status s with Some st => Closed st | None => Empty end
      end
    /\ reader_ok vs (snd (try_read s r))
         (if p <? length (concat vs) then S p else p).
  Proof.
    intros C R. unfold try_read.
    destruct (Nat.ltb_spec (offset r) (known_size r)) as [L|L].
    - destruct (read_ref_ok s vs n r p C R L) as [v [E1 [E2 E3]]].
      rewrite E1, E2. split; [reflexivity|].
      assert (p < length (concat vs)) by (apply nth_error_Some; congruence).
      now destruct (Nat.ltb_spec p (length (concat vs))); [|lia].
    - destruct (update_ok s vs n r p C R) as [U1 U2].
      destruct (Nat.ltb_spec (offset (update s r)) (known_size (update s r))) as [L2|L2].
      + destruct (read_ref_ok s vs n (update s r) p C U1 L2) as [v [E1 [E2 E3]]].
        cbn [fst snd]. rewrite E1, E2. split; [reflexivity|].
        assert (p < length (concat vs)) by (apply nth_error_Some; congruence).
        destruct (Nat.ltb_spec p (length (concat vs))); [|lia].
        now apply (update_ok s vs n).
      + destruct U2 as [U2|[_ U2]]; [lia|]. cbn [fst snd].
        assert (nth_error (concat vs) p = None) as -> by (apply nth_error_None; lia).
        destruct (Nat.ltb_spec p (length (concat vs))); [lia|]. now split.
  Qed.

  (** * Writing *)

  Lemma set_ref_ok (fl : list value) n v :
    set_ref (map Some fl ++ repeat None (S n)) (length fl) v
    = map Some (fl ++ [v]) ++ repeat None n.
  Proof.
    induction fl as [|x fl IH]; [reflexivity|]. cbn [map app length set_ref].
    now rewrite IH.
  Qed.

  Lemma set_back_app (cs : list (chunk value)) c i v :
    set_back (cs ++ [c]) i v = cs ++ [set_ref c i v].
  Proof.
    unfold set_back. rewrite rev_app_distr. cbn [rev app].
    now rewrite rev_involutive.
  Qed.

  (** Writing extends the last chunk or adds one. *)
  Definition extends vs vs' : Prop :=
    length vs <= length vs'
    /\ forall k, k < length vs ->
         concat (firstn k vs') = concat (firstn k vs)
         /\ length (nth k vs []) <= length (nth k vs' []).

  Lemma reader_extends vs vs' r p : extends vs vs' -> reader_ok vs r p -> reader_ok vs' r p.
  Proof.
    intros [L E] R. unfold reader_ok in *. destruct (r_chunk r) as [k|]; [|assumption].
    destruct R as [N [K [P [O1 O2]]]]. destruct (E k K) as [E1 E2].
    repeat split; try assumption; try lia. now rewrite E1.
  Qed.

  Lemma write_ok s vs n v :
    chunks_ok (chunks s) (last_chunk_size s) vs n -> default_capacity s > 0 ->
    s_status s = None ->
    exists s' vs' n',
      internal_write s v = Some (s', callbacks s)
      /\ chunks_ok (chunks s') (last_chunk_size s') vs' n'
      /\ concat vs' = concat vs ++ [v] /\ extends vs vs'
      /\ default_capacity s' = default_capacity s /\ s_status s' = None
      /\ callbacks s' = [] /\ w_closed s' = w_closed s /\ closing s' = closing s
      /\ handle s' = handle s /\ next_reader s' = next_reader s
      /\ readers s' = readers s.
  Proof.
    intros C D ST. unfold internal_write. rewrite ST.
    destruct (default_capacity s) as [|d] eqn:DC; [lia|].
    assert (NEW : forall us (cs : list (chunk value)),
      cs = map (map Some) us -> Forall (fun u => u <> []) us ->
      chunks_ok (set_back (cs ++ [new_chunk (S d)]) 0 v) 1 (us ++ [[v]]) d).
    { intros us cs -> F. right. exists us, [v]. rewrite set_back_app.
      change (new_chunk (S d)) with (map (@Some value) [] ++ repeat None (S d)).
      change 0 with (length (@nil value)). rewrite set_ref_ok.
      repeat split; try assumption. }
    destruct C as [[-> [CE SZ]]|[us [fl [-> [CE [SZ [F G]]]]]]].
    - rewrite CE. cbn [rev app]. do 2 eexists. exists d. split; [reflexivity|].
      cbn [chunks last_chunk_size default_capacity s_status callbacks w_closed
           closing handle next_reader readers].
      split; [apply (NEW [] []); [reflexivity|constructor]|].
      repeat split; auto; cbn in *; lia.
    - rewrite CE, rev_app_distr. cbn [rev app]. unfold capacity.
      rewrite app_length, map_length, repeat_length, SZ.
      destruct (Nat.eqb_spec (length fl + n) (length fl)) as [E|E].
      + assert (n = 0) by lia. subst n.
        assert (FL : fl <> []) by (intros ->; cbn in G; lia).
        exists (Stream _ _ (S d)
          (set_back ((map (map Some) us ++ [map Some fl ++ repeat None 0]) ++ [new_chunk (S d)]) 0 v)
          1 None [] (w_closed s) (closing s) (handle s) (next_reader s) (readers s)).
        exists ((us ++ [fl]) ++ [[v]]), d. split; [reflexivity|].
        cbn [chunks last_chunk_size default_capacity s_status callbacks w_closed
             closing handle next_reader readers].
        split; [|split; [|split]].
        * apply NEW.
          -- rewrite map_app. cbn [map repeat]. now rewrite app_nil_r.
          -- apply Forall_app. split; [assumption|]. now constructor.
        * rewrite !concat_app. cbn. now rewrite !app_nil_r.
        * split; [rewrite !app_length; lia|]. intros k K.
          rewrite firstn_app. replace (k - length (us ++ [fl])) with 0 by lia.
          cbn [firstn]. rewrite app_nil_r. split; [reflexivity|].
          rewrite (app_nth1 (us ++ [fl]) [[v]]) by assumption. lia.
        * repeat split.
      + destruct n as [|n]; [lia|].
        exists (Stream _ _ (S d)
          (set_back (map (map Some) us ++ [map Some fl ++ repeat None (S n)]) (length fl) v)
          (S (length fl)) None [] (w_closed s) (closing s) (handle s) (next_reader s) (readers s)).
        exists (us ++ [fl ++ [v]]), n. split; [reflexivity|].
        cbn [chunks last_chunk_size default_capacity s_status callbacks w_closed
             closing handle next_reader readers].
        split; [|split; [|split]].
        * right. exists us, (fl ++ [v]). rewrite set_back_app, set_ref_ok.
          repeat split; try assumption; rewrite app_length; cbn; lia.
        * rewrite !concat_app. cbn. rewrite !app_nil_r. now rewrite app_assoc.
        * split; [rewrite !app_length; cbn; lia|]. intros k K.
          rewrite app_length in K. cbn in K.
          split.
          -- rewrite !firstn_app. replace (k - length us) with 0 by lia. reflexivity.
          -- destruct (Nat.eq_dec k (length us)) as [->|NE].
             ++ rewrite !app_nth2 by lia. replace (length us - length us) with 0 by lia.
                cbn. rewrite app_length. lia.
             ++ rewrite !app_nth1 by lia. lia.
        * repeat split.
  Qed.
End Chunks.

(** * The simulation *)

Section Simulation.
  Context {value status : Type}.
  Variable orphaned : status.
  Implicit Types (s : stream value status) (a : astream value status).

  Definition readers_ok vs (l : list (nat * reader)) (ps : list (nat * nat)) : Prop :=
    Forall2 (fun ir ip => fst ir = fst ip /\ reader_ok (value := value) vs (snd ir) (snd ip)) l ps.

  Record simulates s a : Prop := Simulates {
    sim_chunks : exists vs n, chunks_ok (chunks s) (last_chunk_size s) vs n
      /\ concat vs = log a /\ readers_ok vs (readers s) (positions a);
    sim_default : default_capacity s > 0;
    sim_status : s_status s = a_status a;
    sim_callbacks : callbacks s = waiting a;
    sim_closed : w_closed s = a_closed a;
    sim_closing : closing s = a_closing a;
    sim_handle : handle s = a_handle a;
    sim_next : next_reader s = a_next a }.

  Lemma find_ok vs l ps i :
    readers_ok vs l ps ->
    match find_reader l i, find_position ps i with
    | Some r, Some p => reader_ok vs r p
    | None, None => True
    | _, _ => False
    end.
  Proof.
    induction 1 as [|[j r] [k p] l ps [E R] F IH]; [exact Logic.I|].
    cbn in E, R |- *. subst k. destruct (j =? i); [assumption|exact IH].
  Qed.

  Lemma set_ok vs l ps i r p :
    readers_ok vs l ps -> reader_ok vs r p ->
    readers_ok vs (set_reader l i r) (set_position ps i p).
  Proof.
    intros F R. induction F as [|[j q] [k m] l ps [E Q] F IH]; [constructor|].
    cbn in E, Q |- *. subst k. destruct (j =? i); constructor; try assumption; now split.
  Qed.

  Lemma set_same ps i p : find_position ps i = Some p -> set_position ps i p = ps.
  Proof.
    induction ps as [|[j q] ps IH]; [discriminate|]. cbn.
    destruct (j =? i); intros E; [congruence|]. now rewrite IH.
  Qed.

  Lemma filter_ok vs l ps i :
    readers_ok vs l ps ->
    readers_ok vs (filter (fun jr => negb (fst jr =? i)) l)
      (filter (fun jp => negb (fst jp =? i)) ps).
  Proof.
    induction 1 as [|[j r] [k p] l ps [E R] F IH]; [constructor|].
    cbn in E, R |- *. subst k. destruct (j =? i); cbn; [assumption|].
    constructor; [now split|assumption].
  Qed.

  Lemma expired_ok s a : simulates s a -> expired s = a_expired _ _ a.
  Proof.
    intros S. unfold expired, a_expired. rewrite (sim_handle _ _ S). f_equal.
    destruct (sim_chunks _ _ S) as [vs [n [_ [_ R]]]].
    destruct R; reflexivity.
  Qed.

  Lemma append_ok s a v :
    simulates s a -> s_status s = None ->
    exists s', internal_write s v = Some (s', callbacks s)
      /\ simulates s' (append _ _ a v).
  Proof.
    intros S ST. destruct (sim_chunks _ _ S) as [vs [n [C [L R]]]].
    destruct (write_ok s vs n v C (sim_default _ _ S) ST)
      as [s' [vs' [n' [E [C' [L' [X [D' [ST' [CB [W [CL [H [NX RD]]]]]]]]]]]]]].
    exists s'. split; [assumption|].
    split; cbn.
    - exists vs', n'. split; [assumption|]. split; [now rewrite L', L|].
      rewrite RD. clear -R X. induction R as [|ir ip l ps [F G] R IH]; constructor; [|exact IH].
      split; [assumption|]. now apply (reader_extends vs).
    - rewrite D'. apply (sim_default _ _ S).
    - rewrite ST'. rewrite <- (sim_status _ _ S). congruence.
    - assumption.
    - rewrite W. apply (sim_closed _ _ S).
    - rewrite CL. apply (sim_closing _ _ S).
    - rewrite H. apply (sim_handle _ _ S).
    - rewrite NX. apply (sim_next _ _ S).
  Qed.

  Ltac easy_sim S := split; cbn;
    [ exact (sim_chunks _ _ S) | exact (sim_default _ _ S) | try exact (sim_status _ _ S)
    | try exact (sim_callbacks _ _ S) | try exact (sim_closed _ _ S)
    | try exact (sim_closing _ _ S) | try exact (sim_handle _ _ S)
    | try exact (sim_next _ _ S) ].

  Lemma step_ok s a o :
    simulates s a ->
    snd (step orphaned s o) = snd (astep orphaned a o)
    /\ simulates (fst (step orphaned s o)) (fst (astep orphaned a o)).
  Proof.
    intros S. pose proof (expired_ok s a S) as X.
    destruct o as [v|v|st|st| |i| | |i|i m| |i]; cbn [step astep].
    - rewrite X. destruct (a_expired _ _ a); [now split|].
      rewrite <- (sim_status _ _ S). destruct (s_status s) as [st|] eqn:ST.
      + unfold internal_write. rewrite ST. now split.
      + destruct (append_ok s a v S ST) as [s' [E SS]]. rewrite E. cbn.
        rewrite (sim_callbacks _ _ S). now split.
    - rewrite X. destruct (a_expired _ _ a); [now split|].
      rewrite <- (sim_status _ _ S). destruct (s_status s) as [st|] eqn:ST.
      + unfold internal_write. rewrite ST. now split.
      + destruct (append_ok s a v S ST) as [s' [E SS]]. rewrite E. cbn.
        rewrite (sim_callbacks _ _ S). now split.
    - rewrite (sim_closed _ _ S). destruct (a_closed a); [now split|].
      split; [reflexivity|]. cbn. easy_sim S; [reflexivity|].
      now rewrite (sim_closing _ _ S).
    - rewrite (sim_closed _ _ S). destruct (a_closed a); [now split|].
      split; [reflexivity|]. cbn. easy_sim S; [reflexivity|].
      now rewrite (sim_closing _ _ S).
    - rewrite (sim_closed _ _ S). destruct (a_closed a); [now split|].
      split; [reflexivity|]. cbn. easy_sim S; [reflexivity|].
      now rewrite (sim_closing _ _ S).
    - rewrite (sim_closing _ _ S). destruct (nth_error (a_closing a) i) as [st|]; [|now split].
      set (s1 := with_closing _ _ s (w_closed s) (remove_nth i (a_closing a))).
      assert (X1 : expired s1 = a_expired _ _ a) by (rewrite <- X; reflexivity).
      rewrite X1. destruct (a_expired _ _ a).
      + split; [reflexivity|]. cbn. easy_sim S. reflexivity.
      + unfold internal_close. change (s_status s1) with (s_status s).
        rewrite (sim_status _ _ S). destruct (a_status a) as [st'|] eqn:ST.
        * split; [reflexivity|]. cbn. easy_sim S; [|reflexivity].
          rewrite (sim_status _ _ S). assumption.
        * split; [cbn; now rewrite (sim_callbacks _ _ S)|].
          cbn. easy_sim S; reflexivity.
    - rewrite X, (sim_closed _ _ S). now split.
    - rewrite (sim_handle _ _ S). destruct (a_handle a) eqn:H; [|now split].
      split; [cbn; now rewrite (sim_next _ _ S)|]. cbn.
      destruct (sim_chunks _ _ S) as [vs [n [C [L R]]]].
      split; cbn; try apply S.
      + exists vs, n. split; [assumption|]. split; [assumption|].
        apply Forall2_app; [assumption|]. constructor; [|constructor].
        split; [apply (sim_next _ _ S)|]. cbn. repeat split.
      + rewrite <- H. apply S.
      + now rewrite (sim_next _ _ S).
    - destruct (sim_chunks _ _ S) as [vs [n [C [L R]]]].
      pose proof (find_ok vs _ _ i R) as F.
      destruct (find_reader (readers s) i) as [r|], (find_position (positions a) i) as [p|];
        try easy.
      destruct (try_read_ok s vs n r p C F) as [T1 T2]. cbn [fst snd].
      split.
      + rewrite T1. unfold read_at. rewrite L, (sim_status _ _ S). reflexivity.
      + split; cbn; try apply S. exists vs, n. split; [assumption|]. split; [assumption|].
        rewrite <- L. now apply set_ok.
    - destruct (sim_chunks _ _ S) as [vs [n [C [L R]]]].
      pose proof (find_ok vs _ _ i R) as F.
      destruct (find_reader (readers s) i) as [r|] eqn:FR,
        (find_position (positions a) i) as [p|] eqn:FP; try easy.
      unfold read_at. rewrite <- (sim_status _ _ S).
      destruct (s_status s) as [st|] eqn:ST.
      { destruct (nth_error (log a) p); now split. }
      destruct (update_ok s vs n r p C F) as [U1 U2].
      assert (RO : readers_ok vs (set_reader (readers s) i (update s r)) (positions a)).
      { rewrite <- (set_same _ _ _ FP). now apply set_ok. }
      destruct U2 as [[U2 U3]|[U2 U3]].
      + destruct (Nat.eqb_spec (offset (update s r)) (known_size (update s r))); [lia|].
        rewrite L in U3. apply nth_error_Some in U3.
        destruct (nth_error (log a) p) as [v|]; [|easy].
        split; [reflexivity|]. split; cbn; try apply S. now exists vs, n.
      + rewrite U2, Nat.eqb_refl. rewrite L in U3.
        assert (nth_error (log a) p = None) as -> by (apply nth_error_None; lia).
        split; [reflexivity|]. split; cbn; try apply S.
        * now exists vs, n.
        * assumption.
        * f_equal. apply (sim_callbacks _ _ S).
    - rewrite (sim_handle _ _ S). destruct (a_handle a); [|now split].
      split; [reflexivity|]. cbn. easy_sim S. reflexivity.
    - destruct (sim_chunks _ _ S) as [vs [n [C [L R]]]].
      pose proof (find_ok vs _ _ i R) as F.
      destruct (find_reader (readers s) i) as [r|], (find_position (positions a) i) as [p|];
        try easy.
      split; [reflexivity|]. split; cbn; try apply S.
      exists vs, n. split; [assumption|]. split; [assumption|]. now apply filter_ok.
  Qed.

  Lemma make_ok d initial :
    d > 0 -> simulates (make_stream d initial) (empty_log value status).
  Proof.
    intros D. split; cbn; try reflexivity; try assumption.
    destruct initial as [|k]; cbn [Nat.ltb Nat.leb].
    - exists [], 0. split; [now left|]. split; [reflexivity|constructor].
    - exists [[]], (S k). split; [|split; [reflexivity|constructor]].
      right. exists [], []. repeat split; [constructor|cbn; lia].
  Qed.

  Lemma run_ok ops : forall s a,
    simulates s a ->
    snd (run orphaned s ops) = snd (arun orphaned a ops)
    /\ simulates (fst (run orphaned s ops)) (fst (arun orphaned a ops)).
  Proof.
    induction ops as [|o ops IH]; intros s a S; [now split|].
    destruct (step_ok s a o S) as [E S'].
    destruct (IH _ _ S') as [E2 S2]. cbn [run arun fst snd].
    split; [now rewrite E, E2|assumption].
  Qed.
End Simulation.

Lemma default_capacity_positive n : default_chunk_capacity n > 0.
Proof.
  unfold default_chunk_capacity. destruct (Nat.eqb_spec n 0); [lia|].
  assert (n <= 512 + n - 1) by lia.
  pose proof (Nat.div_le_mono n (512 + n - 1) n n0 H) as D.
  rewrite Nat.div_same in D by assumption. lia.
Qed.
