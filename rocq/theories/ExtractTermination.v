(** kd.extract always comes to an end, whatever is in the bag: the queue is
    worked off in at most four steps per id. *)

From Coq Require Import String List NArith Arith Bool Lia.
From Verif Require Import ExtractModel.
Import ListNotations.
Open Scope list_scope.

Section Terminate.
  Variables (src : bag) (U : list id).
  Hypothesis HU : forall l, In l src -> incl (layer_ids l) U.

  Definition left_of (seen : list id) : nat :=
    List.length (filter (fun x => if in_dec id_eq_dec x seen then false else true) U).

  Definition work (st : state) : nat :=
    List.length (s_queue st) + left_of (s_seen st) + left_of (s_seen_schema st) + 2 * left_of (s_seen_obj st).

  Lemma left_mono a b : incl a b -> left_of b <= left_of a.
  Proof.
    intros H. unfold left_of. induction U as [|x u IH]; [reflexivity|]. cbn [filter].
    assert (K : length (filter (fun x => if in_dec id_eq_dec x b then false else true) u) <=
                length (filter (fun x => if in_dec id_eq_dec x a then false else true) u)).
    { clear HU. clear -H. induction u as [|y u IH]; [reflexivity|]. cbn [filter].
      destruct (in_dec id_eq_dec y b) as [Hb|Hb]; destruct (in_dec id_eq_dec y a) as [Ha|Ha]; cbn [length]; try lia.
      exfalso. apply Hb, H, Ha. }
    clear IH. destruct (in_dec id_eq_dec x b) as [Hb|Hb]; destruct (in_dec id_eq_dec x a) as [Ha|Ha]; cbn [length]; try lia.
    exfalso. apply Hb, H, Ha.
  Qed.

  Lemma left_strict a b x : incl a b -> In x b -> ~ In x a -> In x U -> left_of b < left_of a.
  Proof.
    intros H Hb Ha. unfold left_of. clear HU. induction U as [|y u IH]; [intros []|]. intros K. cbn [filter].
    assert (M : length (filter (fun x => if in_dec id_eq_dec x b then false else true) u) <=
                length (filter (fun x => if in_dec id_eq_dec x a then false else true) u)).
    { clear -H. induction u as [|z u IH]; [reflexivity|]. cbn [filter].
      destruct (in_dec id_eq_dec z b) as [Hb|Hb]; destruct (in_dec id_eq_dec z a) as [Ha|Ha]; cbn [length]; try lia.
      exfalso. apply Hb, H, Ha. }
    destruct (id_eq_dec y x) as [->|N].
    - destruct (in_dec id_eq_dec x b); [|contradiction]. destruct (in_dec id_eq_dec x a); [contradiction|].
      cbn [length]. lia.
    - destruct K as [K|K]; [congruence|]. specialize (IH K).
      destruct (in_dec id_eq_dec y b) as [Jb|Jb]; destruct (in_dec id_eq_dec y a) as [Ja|Ja]; cbn [length]; try lia.
      exfalso. apply Jb, H, Ja.
  Qed.

  Lemma missing_spec seen objs x : In x (missing seen objs) <-> In x objs /\ ~ In x seen.
  Proof.
    unfold missing. rewrite nodup_In, filter_In. destruct (in_dec id_eq_dec x seen); intuition congruence.
  Qed.

  (** The result has no more work left than before, or is an error of the code. *)
  Definition good {A} (f : A -> state) (st : state) (r : result A) : Prop :=
    match r with Ok a => work (f a) <= work st | Err e => e <> OutOfFuel end.

  Lemma good_ok {A} (f : A -> state) st a : work (f a) <= work st -> good f st (Ok a).
  Proof. auto. Qed.
  Lemma good_err {A} (f : A -> state) st e : e <> OutOfFuel -> good f st (Err e).
  Proof. auto. Qed.
  Lemma good_bind {A B} (f : A -> state) (g : B -> state) st r k :
    good f st r -> (forall a, r = Ok a -> good g (f a) (k a)) -> good g st (bind r k).
  Proof.
    destruct r as [a|e]; cbn [bind good]; [|auto]. intros H K. specialize (K a eq_refl).
    destruct (k a); cbn [good] in *; [lia|exact K].
  Qed.
  Lemma good_weak {A} (f : A -> state) st st1 r : work st1 <= work st -> good f st1 r -> good f st r.
  Proof. intros H. destruct r; cbn [good]; [lia|auto]. Qed.
  Lemma good_fold {A S} (f : S -> state) (step : S -> A -> result S) l s :
    (forall s a, In a l -> good f (f s) (step s a)) -> good f (f s) (fold_res step l s).
  Proof.
    revert s. induction l as [|a l IH]; intros s H; cbn [fold_res].
    - apply good_ok. reflexivity.
    - apply (good_bind f f); [apply H; now left|]. intros s' _. apply IH. intros; apply H; now right.
  Qed.

  Notation same := (fun st : state => st).

  Definition in_u (i : item) : Prop := match i with IId x => In x U | _ => True end.

  Lemma ids_of_u items x : (forall i, In i items -> in_u i) -> In x (ids_of items) -> In x U.
  Proof.
    intros H K. unfold ids_of in K. apply in_flat_map in K. destruct K as [i [K1 K2]].
    destruct i as [y| |]; [|destruct K2|destruct K2]. destruct K2 as [->|[]]. apply (H _ K1).
  Qed.

  Lemma visit_entities_good st items s front :
    (forall i, In i items -> in_u i) -> In s U -> good same st (visit_entities st items s front).
  Proof.
    intros HI HS. unfold visit_entities. destruct (negb (forallb is_id items)); [apply good_err; discriminate|].
    set (new := missing (s_seen st) (ids_of items)). cbn [s_seen_schema s_new s_queue s_seen s_seen_obj].
    assert (LQ : forall (q : queued) l, length (if front then q :: l else l ++ [q]) = S (length l)).
    { intros. destruct front; [reflexivity|]. rewrite app_length. cbn. lia. }
    assert (M1 : left_of (s_seen st ++ new) <= left_of (s_seen st)) by (apply left_mono; intros y; rewrite in_app_iff; auto).
    assert (M2 : left_of (s :: s_seen_schema st) <= left_of (s_seen_schema st)) by (apply left_mono; intros y; now right).
    destruct (match new with [] => true | _ => false end && (if in_dec id_eq_dec s (s_seen_schema st) then true else false)) eqn:B.
    - apply good_ok. unfold work. cbn. lia.
    - apply good_ok. unfold work, enqueue. cbn [s_queue s_seen s_seen_schema s_seen_obj]. rewrite LQ.
      destruct (in_dec id_eq_dec s (s_seen_schema st)) as [Hs|Hs].
      + destruct new as [|x r] eqn:En; [discriminate|].
        assert (Ix : In x new) by (rewrite En; now left). unfold new in Ix. apply missing_spec in Ix. destruct Ix as [I1 I2].
        assert (left_of (s_seen st ++ x :: r) < left_of (s_seen st)).
        { apply (left_strict _ _ x); [intros y; rewrite in_app_iff; auto|rewrite in_app_iff; right; now left|exact I2|].
          apply (ids_of_u items x HI I1). }
        lia.
      + assert (left_of (s :: s_seen_schema st) < left_of (s_seen_schema st)).
        { apply (left_strict _ _ s); [intros y; now right|now left|exact Hs|exact HS]. }
        lia.
  Qed.

  Lemma visit_objects_good st items sch front :
    (forall i, In i items -> in_u i) -> good same st (visit_objects st items sch front).
  Proof.
    intros HI. unfold visit_objects. set (part := missing (s_seen_obj st) (ids_of items)).
    destruct part as [|x r] eqn:En; [apply good_ok; lia|].
    assert (Ix : In x part) by (rewrite En; now left). unfold part in Ix. apply missing_spec in Ix. destruct Ix as [I1 I2].
    set (new := missing (s_seen st) (x :: r)).
    assert (M1 : left_of (s_seen st ++ new) <= left_of (s_seen st)) by (apply left_mono; intros y; rewrite in_app_iff; auto).
    assert (M2 : left_of (s_seen_obj st ++ x :: r) < left_of (s_seen_obj st)).
    { apply (left_strict _ _ x); [intros y; rewrite in_app_iff; auto|rewrite in_app_iff; right; now left|exact I2|].
      apply (ids_of_u items x HI I1). }
    apply good_ok. unfold enqueue.
    destruct new as [|y l]; destruct (Nat.eqb _ _); unfold work; cbn [s_queue s_seen s_seen_schema s_seen_obj];
      destruct front; cbn [length]; rewrite ?app_length; cbn [length]; try lia.
  Qed.

  Definition in_uo (t : option item) : Prop := match t with Some i => in_u i | None => True end.

  Lemma visit_good st items t front :
    (forall i, In i items -> in_u i) -> in_uo t -> good same st (visit st items t front).
  Proof.
    intros HI HT. unfold visit. destruct t as [[s|p v|[| | |p]]|]; try (apply good_err; discriminate).
    - apply visit_entities_good; auto.
    - apply visit_objects_good; auto.
    - apply visit_objects_good; auto.
    - apply good_ok. lia.
    - destruct (forallb (of_prim p) items); [apply good_ok; lia|apply good_err; discriminate].
  Qed.

  Lemma work_new st n : work (with_new st n) = work st.
  Proof. reflexivity. Qed.

  Lemma u_of l x : In l src -> In x (layer_ids l) -> In x U.
  Proof. intros H. apply HU. exact H. Qed.

  Ltac in_layer n := unfold layer_ids; rewrite !in_app_iff;
    match n with
    | 0 => left | 1 => right; left | 2 => right; right; left
    | 3 => right; right; right; left | 4 => right; right; right; right end.

  Lemma find_key_mem {K V} (dec : forall a b : K, {a = b} + {a <> b}) k (l : list (K * V)) v :
    find_key dec k l = Some v -> In (k, v) l.
  Proof.
    induction l as [|[k' v'] l IH]; cbn [find_key]; [discriminate|].
    destruct (dec k k') as [->|N]; intros H; [left; congruence|right; auto].
  Qed.

  Lemma first_mem {A} (f : layer -> option A) b v : first_of f b = Some v -> exists l, In l b /\ f l = Some v.
  Proof.
    induction b as [|l b IH]; cbn [first_of]; [discriminate|].
    destruct (f l) eqn:F; intros H.
    - exists l. split; [now left|congruence].
    - destruct (IH H) as [l' [I1 I2]]. exists l'. split; [now right|exact I2].
  Qed.

  Lemma attr_u x a i : get_attr src x a = Some (Some i) -> in_u i.
  Proof.
    intros H. destruct i as [y| |]; [|exact Logic.I|exact Logic.I]. cbn [in_u].
    unfold get_attr in H. apply first_mem in H. destruct H as [l [Il H]]. apply (u_of l _ Il).
    unfold layer_attr in H. destruct (find_key key_eq_dec (x, a) (l_attrs l)) as [c|] eqn:F.
    - assert (c = Some (IId y)) by congruence. subst c. in_layer 0. apply in_flat_map.
      exists ((x, a), Some (IId y)). split; [apply (find_key_mem _ _ _ _ F)|now left].
    - destruct (find_key akey_eq_dec (i_alloc x, a) (l_dense l)) as [d|] eqn:F2; [|discriminate].
      in_layer 1. apply in_flat_map. exists ((i_alloc x, a), d). split; [apply (find_key_mem _ _ _ _ F2)|].
      cbn [snd]. apply in_flat_map. exists (Some (Some (IId y))). split; [|now left].
      destruct (nth_in_or_default (i_off x) d None) as [K|K]; [rewrite H in K; exact K|congruence].
  Qed.

  Lemma list_u x l i : get_list src x = Some l -> In (Some i) l -> in_u i.
  Proof.
    intros H J. destruct i as [y| |]; [|exact Logic.I|exact Logic.I]. cbn [in_u].
    unfold get_list in H. apply first_mem in H. destruct H as [ly [Il H]]. apply (u_of ly _ Il).
    in_layer 2. apply in_flat_map. exists (x, l). split; [apply (find_key_mem _ _ _ _ H)|].
    cbn [snd]. apply in_flat_map. exists (Some (IId y)). split; [exact J|now left].
  Qed.

  Lemma dict_u x k i : get_dict src x k = Some (Some i) -> in_u i.
  Proof.
    intros H. destruct i as [y| |]; [|exact Logic.I|exact Logic.I]. cbn [in_u].
    unfold get_dict in H. apply first_mem in H. destruct H as [ly [Il H]]. apply (u_of ly _ Il).
    in_layer 3. apply in_flat_map. exists ((x, k), Some (IId y)). split; [apply (find_key_mem _ _ _ _ H)|].
    apply in_app_iff. right. now left.
  Qed.

  Lemma dict_key_u x k : In k (dict_keys src x) -> in_u k.
  Proof.
    intros H. destruct k as [y| |]; [|exact Logic.I|exact Logic.I]. cbn [in_u].
    unfold dict_keys in H. rewrite nodup_In, in_flat_map in H. destruct H as [ly [Il H]]. apply (u_of ly _ Il).
    apply in_flat_map in H. destruct H as [[[x' k'] c] [H1 H2]]. cbn [fst snd] in H2.
    destruct (id_eq_dec x x') as [<-|]; [|destruct H2]. destruct H2 as [->|[]].
    in_layer 3. apply in_flat_map. exists ((x, IId y), c). split; [exact H1|]. apply in_app_iff. left. now left.
  Qed.

  Lemma schema_u s a i : get_schema src s a = Some (Some i) -> in_u i.
  Proof.
    intros H. destruct i as [y| |]; [|exact Logic.I|exact Logic.I]. cbn [in_u].
    unfold get_schema in H. apply first_mem in H. destruct H as [ly [Il H]]. apply (u_of ly _ Il).
    in_layer 4. apply in_flat_map. exists ((s, a), Some (IId y)). split; [apply (find_key_mem _ _ _ _ H)|now left].
  Qed.

  Lemma scan_u al a m b full o full' d :
    incl b src ->
    (forall d0, o = Some d0 -> exists l, In l src /\ In ((al, a), d0) (l_dense l)) ->
    scan_sources al a m b full o = (full', inr (Some d)) ->
    exists l, In l src /\ In ((al, a), d) (l_dense l).
  Proof.
    revert full o. induction b as [|l b IH]; intros full o HB HO H; cbn [scan_sources] in H.
    - apply HO. congruence.
    - assert (Il : In l src) by (apply HB; now left). assert (HB' : incl b src) by (intros y Hy; apply HB; now right).
      unfold sources in H.
      destruct (existsb _ (l_attrs l)); [discriminate|].
      destruct o as [d0|].
      + destruct (find_key akey_eq_dec (al, a) (l_dense l)) as [d1|] eqn:F; [discriminate|].
        apply (IH _ _ HB' HO H).
      + apply (IH _ _ HB') in H; [exact H|]. intros d0 Hd0. exists l. split; [exact Il|].
        apply (find_key_mem akey_eq_dec). exact Hd0.
  Qed.

  Lemma firstn_in {A} (x : A) n l : In x (firstn n l) -> In x l.
  Proof. intros H. rewrite <- (firstn_skipn n l). apply in_app_iff. now left. Qed.

  Lemma maybe_full_u objs a full vals full' i :
    get_maybe_full src objs a full = (vals, full') -> In i (presents vals) -> in_u i.
  Proof.
    intros H K. unfold presents in K. apply in_flat_map in K. destruct K as [c [K1 K2]].
    destruct c as [[i'|]|]; try (destruct K2; fail). destruct K2 as [->|[]].
    assert (PL : In (Some (Some i)) (map (fun x => get_attr src x a) objs) -> in_u i).
    { intros J. apply in_map_iff in J. destruct J as [x [J _]]. apply (attr_u x a i J). }
    unfold get_maybe_full in H. destruct (negb full && negb (full_prefix objs)).
    - assert (vals = map (fun x => get_attr src x a) objs) by congruence. subst vals. auto.
    - destruct objs as [|x r].
      + assert (vals = map (fun x => get_attr src x a) []) by congruence. subst vals. auto.
      + destruct (scan_sources (i_alloc x) a (length (x :: r)) src full None) as [f2 [u|[d|]]] eqn:S.
        * assert (vals = map (fun x => get_attr src x a) (x :: r)) by congruence. subst vals. auto.
        * assert (vals = firstn (length (x :: r)) d) by congruence. subst vals. apply firstn_in in K1.
          destruct (scan_u _ _ _ _ _ _ _ _ (incl_refl src) (fun d0 (E : None = Some d0) => match E with eq_refl => Logic.I end) S)
            as [l [Il Id]].
          destruct i as [y| |]; [|exact Logic.I|exact Logic.I]. cbn [in_u]. apply (u_of l _ Il).
          in_layer 1. apply in_flat_map. exists ((i_alloc x, a), d). split; [exact Id|]. cbn [snd].
          apply in_flat_map. exists (Some (Some (IId y))). split; [exact K1|now left].
        * assert (vals = map (fun _ => None) (x :: r)) by congruence. subst vals.
          apply in_map_iff in K1. destruct K1 as [z [K1 _]]. discriminate.
  Qed.

  Lemma process_attribute_good st objs a t full :
    in_u t -> good fst st (process_attribute src st objs a t full).
  Proof.
    intros T. unfold process_attribute. destruct (get_maybe_full src objs a full) as [vals full'] eqn:G.
    apply (good_weak _ _ (with_new st (match objs with
         | x :: _ => if full' then set_full (s_new st) (i_alloc x) a vals
                     else set_skip_unset (s_new st) objs a vals
         | [] => s_new st end))); [rewrite work_new; lia|].
    apply (good_bind same fst).
    - apply visit_good; [|exact T]. intros i. apply (maybe_full_u _ _ _ _ _ _ G).
    - intros st' _. apply good_ok. reflexivity.
  Qed.

  Lemma process_dicts_good st objs kt vt :
    in_uo kt -> in_uo vt -> good same st (process_dicts src st objs kt vt).
  Proof.
    intros K V. unfold process_dicts. destruct (negb _); [apply good_err; discriminate|].
    set (entries := flat_map _ objs). set (values := map _ entries).
    match goal with |- good _ _ (bind (visit (with_new st ?n) _ _ _) _) => apply (good_weak _ _ (with_new st n)); [rewrite work_new; lia|] end.
    apply (good_bind same same).
    - apply visit_good; [|exact K]. intros i H. apply in_map_iff in H. destruct H as [[x k] [<- H]]. cbn [snd].
      unfold entries in H. apply in_flat_map in H. destruct H as [y [_ H]]. apply in_map_iff in H.
      destruct H as [k' [E H]]. assert (k' = k) by congruence. subst k'. apply (dict_key_u y k H).
    - intros st' _. apply visit_good; [|exact V]. intros i H. unfold present_items in H. apply in_flat_map in H.
      destruct H as [[j|] [H1 H2]]; [|destruct H2]. destruct H2 as [->|[]].
      unfold values in H1. apply in_map_iff in H1. destruct H1 as [[x k] [H1 _]]. cbn [fst snd] in H1.
      destruct (get_dict src x k) as [c|] eqn:G; [|discriminate]. subst c. apply (dict_u x k i G).
  Qed.

  Lemma process_lists_good st objs t : in_uo t -> good same st (process_lists src st objs t).
  Proof.
    intros T. unfold process_lists. destruct (negb _); [apply good_err; discriminate|].
    set (lists := flat_map _ objs).
    match goal with |- good _ _ (visit (with_new st ?n) _ _ _) => apply (good_weak _ _ (with_new st n)); [rewrite work_new; lia|] end.
    apply visit_good; [|exact T]. intros i H. apply in_flat_map in H. destruct H as [[x l] [H1 H2]]. cbn [snd] in H2.
    unfold lists in H1. apply in_flat_map in H1. destruct H1 as [y [_ H1]].
    destruct (get_list src y) as [l'|] eqn:G; [|destruct H1]. destruct H1 as [E|[]].
    assert (l' = l) by congruence. subst l'. unfold present_items in H2. apply in_flat_map in H2.
    destruct H2 as [[j|] [H2 H3]]; [|destruct H3]. destruct H3 as [->|[]]. apply (list_u y l i G H2).
  Qed.

  Notation first3 := (fun r => fst (fst r)).

  Lemma copy_schema_good st s a : good (A := state * option item * bool) first3 st (copy_schema src st s a).
  Proof.
    unfold copy_schema. destruct (get_schema src s a) as [c|]; [|apply good_err; discriminate].
    destruct (get_schema [s_new st] s a) as [c'|]; [|apply good_ok; cbn [fst]; rewrite work_new; lia].
    destruct (cell_eq_dec c' c); [apply good_ok; cbn; lia|apply good_err; discriminate].
  Qed.
  Lemma copy_schema_u st s a st' t u : copy_schema src st s a = Ok (st', t, u) -> in_uo t.
  Proof.
    unfold copy_schema. destruct (get_schema src s a) as [c|] eqn:G; [|discriminate].
    intros H. assert (c = t).
    { destruct (get_schema [s_new st] s a) as [c'|]; [|congruence]. destruct (cell_eq_dec c' c); [congruence|discriminate]. }
    subst c. destruct t as [i|]; [|exact Logic.I]. apply (schema_u s a i G).
  Qed.

  Lemma copy_schemas_good st ss a : good (A := state * list (option item) * bool) first3 st (copy_schemas src st ss a).
  Proof.
    unfold copy_schemas.
    match goal with |- good _ _ (bind ?r _) => assert (K : forall e, r = Err e -> e <> OutOfFuel) end.
    { intros e. generalize false. generalize (combine ss (map (fun s => match s with Some s0 => get_schema src s0 a | None => None end) ss)).
      induction l as [|[[s|] [c|]] l IH]; intros b; cbn [fold_res]; try discriminate; cbn [bind]; try apply IH.
      destruct (get_schema [s_new st] s a) as [c'|]; [|cbn [bind]; apply IH].
      destruct (cell_eq_dec c c'); cbn [bind]; [apply IH|]. congruence. }
    match goal with |- good _ _ (bind ?r _) => destruct r as [ch|e] eqn:E end; cbn [bind].
    - apply good_ok. cbn [fst]. destruct ch; [rewrite work_new; lia|lia].
    - apply good_err. apply (K e eq_refl).
  Qed.
  Lemma copy_schemas_u st ss a st' ts u t :
    copy_schemas src st ss a = Ok (st', ts, u) -> In (Some t) ts -> in_u t.
  Proof.
    unfold copy_schemas. intros H K.
    match type of H with bind ?r _ = _ => destruct r as [ch|e] end; cbn [bind] in H; [|discriminate].
    assert (E : ts = map (fun c : option (option item) => match c with Some t => t | None => None end)
        (map (fun s => match s with Some s => get_schema src s a | None => None end) ss)) by congruence.
    subst ts. rewrite map_map in K. apply in_map_iff in K. destruct K as [[s|] [K _]]; [|discriminate].
    destruct (get_schema src s a) as [c|] eqn:G; [|discriminate]. subst c. apply (schema_u s a t G).
  Qed.

  Lemma groups_mem {K} dec (k : K) keys : In k (groups dec keys) -> In (Some k) keys.
  Proof.
    unfold groups. rewrite nodup_In, in_flat_map. intros [[k'|] [H J]]; [|destruct J].
    destruct J as [<-|[]]. exact H.
  Qed.

  Lemma entity_attr_good objs s lp a : good lp_state (lp_state lp) (entity_attr src objs s lp a).
  Proof.
    unfold entity_attr. destruct (string_dec a kItems); [apply good_ok; lia|].
    destruct (string_dec a kKeys); [apply good_ok; lia|]. destruct (string_dec a kValues); [apply good_ok; lia|].
    apply (good_bind first3 lp_state); [apply copy_schema_good|]. intros [[st t] u] E. cbn [fst].
    pose proof (copy_schema_u _ _ _ _ _ _ E) as T. destruct t as [t|]; [|apply good_ok; cbn; lia].
    destruct (string_dec a kName); [apply good_ok; cbn; lia|].
    destruct (string_dec a kMetadata).
    - destruct u; [|apply good_ok; cbn; lia].
      apply (good_bind same lp_state); [|intros st' _; apply good_ok; cbn; lia].
      apply visit_good; [|exact Logic.I]. intros i [<-|[]]. exact T.
    - destruct (u || negb (is_nil objs)); [|apply good_ok; cbn; lia].
      apply (good_bind fst lp_state); [apply process_attribute_good; exact T|].
      intros [st' f] _. apply good_ok. cbn. lia.
  Qed.

  Lemma process_entities_good st objs s : good same st (process_entities src st objs s).
  Proof.
    unfold process_entities. destruct (a_kind (i_alloc s)) as [| | |[|]]; try (apply good_err; discriminate).
    - apply good_ok. lia.
    - unfold process_entity_attrs. apply (good_bind lp_state same).
      + apply (good_fold lp_state (entity_attr src objs s) (schema_names src s) (mkLoop st false false)).
        intros lp a _. apply entity_attr_good.
      + intros lp _. destruct (has_name kItems (schema_names src s)).
        * destruct (_ || _); [apply good_err; discriminate|].
          apply (good_bind first3 same); [apply copy_schema_good|]. intros [[st' t] u] E. cbn [fst].
          destruct (_ || _); [|apply good_ok; lia]. apply process_lists_good. apply (copy_schema_u _ _ _ _ _ _ E).
        * destruct (has_name kKeys (schema_names src s) || has_name kValues (schema_names src s)); [|apply good_ok; lia].
          destruct (lp_regular lp || _ || _); [apply good_err; discriminate|].
          apply (good_bind first3 same); [apply copy_schema_good|]. intros [[st1 t1] u1] E1. cbn [fst].
          apply (good_bind first3 same); [apply copy_schema_good|]. intros [[st2 t2] u2] E2. cbn [fst].
          destruct (u1 || u2 || _); [|apply good_ok; lia].
          apply process_dicts_good; [apply (copy_schema_u _ _ _ _ _ _ E1)|apply (copy_schema_u _ _ _ _ _ _ E2)].
  Qed.

  Lemma objects_attr_good objs ss acc a : good fst (fst acc) (objects_attr src objs ss acc a).
  Proof.
    unfold objects_attr. destruct (string_dec a kItems); [apply good_ok; lia|].
    destruct (string_dec a kKeys); [apply good_ok; lia|]. destruct (string_dec a kValues); [apply good_ok; lia|].
    destruct acc as [st full]. cbn [fst].
    apply (good_bind first3 fst); [apply copy_schemas_good|]. intros [[st1 ts] u] E. cbn [fst].
    assert (TU : forall t, In t (groups item_eq_dec ts) -> in_u t).
    { intros t H. apply (copy_schemas_u _ _ _ _ _ _ t E). apply (groups_mem item_eq_dec). exact H. }
    destruct (string_dec a kMetadata).
    - apply (good_bind same fst); [|intros st' _; apply good_ok; cbn; lia].
      apply visit_good; [|exact Logic.I]. intros i H. unfold present_items in H. apply in_flat_map in H.
      destruct H as [[j|] [H1 H2]]; [|destruct H2]. destruct H2 as [->|[]]. apply (copy_schemas_u _ _ _ _ _ _ i E H1).
    - destruct (string_dec a kName); [apply good_ok; cbn; lia|].
      destruct (negb u && is_nil objs); [apply good_ok; cbn; lia|].
      destruct (groups item_eq_dec ts) as [|t [|t2 r]].
      + apply good_ok. cbn. lia.
      + apply process_attribute_good. apply TU. now left.
      + apply (good_fold fst _ _ (st1, full)). intros acc' t' H. apply process_attribute_good. apply TU. exact H.
  Qed.

  Lemma objects_lists_good st objs ss : good same st (objects_lists src st objs ss).
  Proof.
    unfold objects_lists. apply (good_bind first3 same); [apply copy_schemas_good|]. intros [[st1 ts] u] E. cbn [fst].
    assert (TU : forall t, In t (groups item_eq_dec ts) -> in_u t).
    { intros t H. apply (copy_schemas_u _ _ _ _ _ _ t E). apply (groups_mem item_eq_dec). exact H. }
    destruct (negb u && is_nil objs); [apply good_ok; lia|].
    assert (FD : good same st1 (fold_res (fun st t => process_lists src st (group_of item_eq_dec t ts objs) (Some t)) (groups item_eq_dec ts) st1)).
    { apply (good_fold same). intros st' t H. apply process_lists_good. apply TU. exact H. }
    destruct (groups item_eq_dec ts) as [|t [|t2 r]]; [exact FD| |exact FD].
    apply process_lists_good. apply TU. now left.
  Qed.

  Lemma objects_dicts_good st objs ss : good same st (objects_dicts src st objs ss).
  Proof.
    unfold objects_dicts. apply (good_bind first3 same); [apply copy_schemas_good|]. intros [[st1 ts] u] E. cbn [fst].
    apply (good_bind first3 same); [apply copy_schemas_good|]. intros [[st2 vs] u2] E2. cbn [fst].
    destruct (negb u && negb u2 && is_nil objs); [apply good_ok; lia|].
    set (pairs := map _ (combine ts vs)).
    assert (FD : good same st2 (fold_res (fun st p => process_dicts src st
              (group_of (pair_eq_dec item_eq_dec item_eq_dec) p pairs objs) (Some (fst p)) (Some (snd p)))
            (groups (pair_eq_dec item_eq_dec item_eq_dec) pairs) st2)).
    { apply (good_fold same). intros st' [k v] H. apply groups_mem in H. unfold pairs in H. apply in_map_iff in H.
      destruct H as [[k' v'] [H1 H2]]. destruct k' as [k'|]; [|discriminate]. destruct v' as [v'|]; [|discriminate].
      assert (k' = k) by congruence. assert (v' = v) by congruence. subst.
      apply process_dicts_good; cbn [in_uo fst snd].
      - apply (copy_schemas_u _ _ _ _ _ _ k E). apply (in_combine_l _ _ _ _ H2).
      - apply (copy_schemas_u _ _ _ _ _ _ v E2). apply (in_combine_r _ _ _ _ H2). }
    destruct (groups item_eq_dec ts) as [|kt [|kt2 r]] eqn:G1; [exact FD| |exact FD].
    destruct (groups item_eq_dec vs) as [|vt [|vt2 r]] eqn:G2; [exact FD| |exact FD].
    apply process_dicts_good; cbn [in_uo].
    - apply (copy_schemas_u _ _ _ _ _ _ kt E). apply (groups_mem item_eq_dec). rewrite G1. now left.
    - apply (copy_schemas_u _ _ _ _ _ _ vt E2). apply (groups_mem item_eq_dec). rewrite G2. now left.
  Qed.

  Lemma objects_single_good st repr objs ss : good same st (objects_single src st repr objs ss).
  Proof.
    unfold objects_single. set (names := if small _ then _ else _).
    apply (good_bind fst same).
    - apply (good_fold fst _ _ (st, false)). intros acc a _. apply objects_attr_good.
    - intros [st1 f] _. cbn [fst]. apply (good_bind same same).
      + destruct (has_name kItems names); [apply objects_lists_good|apply good_ok; lia].
      + intros st2 _. destruct (_ || _); [apply objects_dicts_good|apply good_ok; lia].
  Qed.

  Lemma process_objects_good st objs only : good same st (process_objects src st objs only).
  Proof.
    unfold process_objects. destruct (negb _); [apply good_err; discriminate|].
    set (st1 := with_new st _). assert (W1 : work st1 = work st) by reflexivity.
    destruct (_ || _); [apply good_ok; lia|].
    apply (good_weak _ _ st1); [lia|]. unfold objects_with_schemas.
    set (reprs := map schema_repr _).
    assert (FD : forall rs, good same st1 (fold_res (fun st r => objects_single src st r (group_of id_eq_dec r reprs objs)
         (group_of id_eq_dec r reprs (map (fun c => match c with Some (Some (IId s)) => Some s | _ => None end)
            (map (fun x => get_attr src x kSchemaAttr) objs)))) rs st1)).
    { intros rs. apply (good_fold same). intros st' r _. apply objects_single_good. }
    destruct (groups id_eq_dec reprs) as [|r [|r2 rs]]; [apply good_ok; lia|apply objects_single_good|apply FD].
  Qed.

  Lemma process_good st q : good same st (process src st q).
  Proof.
    unfold process. destruct (q_schema q) as [s|p v|[| | |p]]; try (apply good_ok; lia).
    - apply process_entities_good.
    - apply good_err. discriminate.
    - apply process_objects_good.
    - unfold process_schemas. apply (good_fold same). intros st' s _. apply process_entities_good.
  Qed.

  Lemma queue_ends fuel st : work st <= fuel -> process_queue src fuel st <> Err OutOfFuel.
  Proof.
    revert st. induction fuel as [|fuel IH]; intros st H; cbn [process_queue].
    - destruct (s_queue st) as [|q r] eqn:Q; [discriminate|]. exfalso. unfold work in H. rewrite Q in H. cbn in H. lia.
    - destruct (s_queue st) as [|q r] eqn:Q; [discriminate|].
      set (st0 := mkState _ r _ _ _). pose proof (process_good st0 q) as G.
      assert (W0 : S (work st0) = work st) by (unfold work, st0; rewrite Q; cbn; lia).
      destruct (process src st0 q) as [st1|e]; cbn [bind good] in *; [apply IH; lia|congruence].
  Qed.
End Terminate.

Lemma left_all U : left_of U [] <= List.length U.
Proof. unfold left_of. induction U as [|x U IH]; [reflexivity|]. cbn [filter in_dec List.length]. destruct (in_dec id_eq_dec x []) as [[]|]; cbn [List.length]; lia. Qed.

Lemma extract_ends src ds sch : extract src ds sch <> Err OutOfFuel.
Proof.
  unfold extract. set (U := universe src ds sch).
  assert (HU : forall l, In l src -> incl (layer_ids l) U).
  { intros l H x K. unfold U, universe. rewrite !in_app_iff. right. right. apply in_flat_map. exists l. auto. }
  set (st0 := mkState empty_layer [] [] [] []).
  pose proof (visit_good src U HU st0 ds (Some sch) false) as G.
  assert (G1 : good U (fun st => st) st0 (visit st0 ds (Some sch) false)).
  { apply G.
    - intros i H. destruct i as [x| |]; [|exact Logic.I|exact Logic.I]. cbn [in_u]. unfold U, universe.
      rewrite !in_app_iff. right. left. unfold ids_of. apply in_flat_map. exists (IId x). split; [exact H|now left].
    - cbn [in_uo]. destruct sch as [s| |]; [|exact Logic.I|exact Logic.I]. cbn [in_u]. unfold U, universe. now left. }
  destruct (visit st0 ds (Some sch) false) as [st1|e]; cbn [bind good] in *; [|congruence].
  assert (W0 : work U st0 <= 4 * List.length U).
  { unfold work, st0. cbn [s_queue s_seen s_seen_schema s_seen_obj List.length]. pose proof (left_all U). lia. }
  pose proof (queue_ends src U HU (4 * List.length U) st1) as K.
  destruct (process_queue src (4 * List.length U) st1) as [st2|e]; cbn [bind]; [discriminate|].
  intros E. apply K; [lia|congruence].
Qed.
