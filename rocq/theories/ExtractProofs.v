(** Proofs about kd.extract (ExtractModel, ExtractSpec). *)

From Coq Require Import String List NArith Arith Bool Lia Permutation.
From Verif Require Import ExtractModel ExtractSpec ExtractTermination.
Import ListNotations.
Open Scope list_scope.

(** ** Reads of a single bag *)

Notation nattr n x a := (layer_attr x a n).
Notation nlist n x := (find_key id_eq_dec x (l_lists n)).
Notation ndict n x k := (find_key dkey_eq_dec (x, k) (l_dicts n)).
Notation nsch n s a := (find_key key_eq_dec (s, a) (l_schemas n)).

Definition nval (n : layer) (x : id) (a : string) : option item :=
  match nattr n x a with Some (Some v) => Some v | _ => None end.

Lemma get_attr_one n x a : get_attr [n] x a = nattr n x a.
Proof. unfold get_attr. simpl. destruct (nattr n x a); reflexivity. Qed.
Lemma get_list_one n x : get_list [n] x = nlist n x.
Proof. unfold get_list. simpl. destruct (find_key _ _ _); reflexivity. Qed.
Lemma get_dict_one n x k : get_dict [n] x k = ndict n x k.
Proof. unfold get_dict. simpl. destruct (find_key _ _ _); reflexivity. Qed.
Lemma get_schema_one n s a : get_schema [n] s a = nsch n s a.
Proof. unfold get_schema. simpl. destruct (find_key _ _ _); reflexivity. Qed.
Lemma value_one n x a : value [n] x a = nval n x a.
Proof. unfold value, nval. rewrite get_attr_one. reflexivity. Qed.

Lemma nval_some n x a v : nval n x a = Some v <-> nattr n x a = Some (Some v).
Proof.
  unfold nval. destruct (nattr n x a) as [[w|]|]; split; intros E; inversion E; reflexivity.
Qed.
Lemma value_some b x a v : value b x a = Some v <-> get_attr b x a = Some (Some v).
Proof.
  unfold value. destruct (get_attr b x a) as [[w|]|]; split; intros E; inversion E; reflexivity.
Qed.

Lemma find_key_cons {K V} dec (k k' : K) (v : V) l :
  find_key dec k ((k', v) :: l) = if dec k k' then Some v else find_key dec k l.
Proof. reflexivity. Qed.

Lemma find_key_none {K V} dec (k : K) (l : list (K * V)) :
  find_key dec k l = None <-> ~ In k (map fst l).
Proof.
  induction l as [|[k' v] l IH]; simpl.
  - split; auto.
  - destruct (dec k k').
    + subst. split; [discriminate|]. intros H. exfalso. apply H. now left.
    + rewrite IH. split; [intros H [E|I]; [congruence|auto]|auto].
Qed.

Lemma find_key_in {K V} dec (k : K) (l : list (K * V)) v : find_key dec k l = Some v -> In (k, v) l.
Proof.
  induction l as [|[k' v'] l IH]; simpl; [discriminate|].
  destruct (dec k k'); intros E; [left; congruence|right; auto].
Qed.

Lemma first_of_none {A} (f : layer -> option A) b : first_of f b = None <-> forall l, In l b -> f l = None.
Proof.
  induction b as [|l b IH]; simpl.
  - split; [intros _ l []|reflexivity].
  - destruct (f l) eqn:F.
    + split; [discriminate|]. intros H. rewrite (H l) in F by now left. discriminate.
    + rewrite IH. split; [intros H l' [<-|I]; auto|auto].
Qed.

Lemma schema_names_in b s a : In a (schema_names b s) <-> get_schema b s a <> None.
Proof.
  unfold schema_names, get_schema. rewrite nodup_In, in_flat_map. rewrite first_of_none.
  split.
  - intros [l [I J]] H. apply in_flat_map in J. destruct J as [[[s' a'] c] [J K]]. cbn [fst snd] in K.
    destruct (id_eq_dec s s') as [<-|]; [|destruct K]. destruct K as [<-|[]].
    specialize (H l I). cbn beta in H. rewrite find_key_none in H. apply H.
    apply in_map_iff. exists ((s, a'), c). auto.
  - intros H. induction b as [|l b IH]; [exfalso; apply H; intros l []|].
    destruct (find_key key_eq_dec (s, a) (l_schemas l)) as [c|] eqn:F.
    + exists l. split; [now left|]. apply in_flat_map. exists ((s, a), c).
      split; [apply (find_key_in _ _ _ _ F)|]. cbn [fst snd]. destruct (id_eq_dec s s); [now left|congruence].
    + destruct IH as [l' [I J]].
      * intros G. apply H. intros l' [<-|I]; auto.
      * exists l'. split; [now right|exact J].
Qed.

Lemma alloc_names_in b s a : get_schema b s a <> None -> In a (alloc_names b (i_alloc s)).
Proof.
  intros H. apply schema_names_in in H. unfold schema_names in H. unfold alloc_names.
  rewrite nodup_In, in_flat_map in *. destruct H as [l [I J]]. exists l. split; [exact I|].
  rewrite in_flat_map in *. destruct J as [[[s' a'] c] [J K]]. exists ((s', a'), c). split; [exact J|].
  cbn [fst snd] in *. destruct (id_eq_dec s s') as [<-|]; [|destruct K].
  destruct (alloc_eq_dec (i_alloc s) (i_alloc s)); [exact K|congruence].
Qed.

Lemma alloc_names_nodup b al : NoDup (alloc_names b al).
Proof. apply NoDup_nodup. Qed.

Lemma dict_keys_in b x k : In k (dict_keys b x) <-> get_dict b x k <> None.
Proof.
  unfold dict_keys, get_dict. rewrite nodup_In, in_flat_map. rewrite first_of_none.
  split.
  - intros [l [I J]] H. apply in_flat_map in J. destruct J as [[[s' a'] c] [J K]]. cbn [fst snd] in K.
    destruct (id_eq_dec x s') as [<-|]; [|destruct K]. destruct K as [<-|[]].
    specialize (H l I). cbn beta in H. rewrite find_key_none in H. apply H.
    apply in_map_iff. exists ((x, a'), c). auto.
  - intros H. induction b as [|l b IH]; [exfalso; apply H; intros l []|].
    destruct (find_key dkey_eq_dec (x, k) (l_dicts l)) as [c|] eqn:F.
    + exists l. split; [now left|]. apply in_flat_map. exists ((x, k), c).
      split; [apply (find_key_in _ _ _ _ F)|]. cbn [fst snd]. destruct (id_eq_dec x x); [now left|congruence].
    + destruct IH as [l' [I J]].
      * intros G. apply H. intros l' [<-|I]; auto.
      * exists l'. split; [now right|exact J].
Qed.

(** ** Writes *)

Lemma set_attr_get n x a c y b :
  nattr (set_attr n x a c) y b = if key_eq_dec (y, b) (x, a) then Some c else nattr n y b.
Proof.
  unfold layer_attr, set_attr. cbn [l_attrs l_dense]. rewrite find_key_cons.
  destruct (key_eq_dec (y, b) (x, a)); reflexivity.
Qed.

(** [r] is [n] with the attribute [a] of [objs] set to [f]; [lost] are the
    cells that may be forgotten. *)
Record written (n r : layer) (objs : list id) (a : string) (f : id -> option cell) (lost : id -> Prop) : Prop := {
  wr_from y b c : nattr r y b = Some c -> nattr n y b = Some c \/ (b = a /\ In y objs /\ f y = Some c);
  wr_set y v : In y objs -> f y = Some (Some v) -> nattr r y a = Some (Some v);
  wr_kept y b c : nattr n y b = Some c -> nattr r y b = Some c \/ (b = a /\ (In y objs \/ lost y));
  wr_lists : l_lists r = l_lists n;
  wr_dicts : l_dicts r = l_dicts n;
  wr_schemas : l_schemas r = l_schemas n }.

Lemma set_attrs_written n a l f objs lost :
  (forall x c, In (x, c) l -> In x objs /\ f x = Some c) ->
  (forall x c, In x objs -> f x = Some c -> In (x, c) l) ->
  written n (set_attrs n a l) objs a f lost.
Proof.
  intros S1 S2.
  assert (G : forall l n, (forall x c, In (x, c) l -> In x objs /\ f x = Some c) ->
    let r := set_attrs n a l in
    (forall y b, nattr r y b = nattr n y b \/ (b = a /\ In y objs /\ exists c, f y = Some c /\ nattr r y b = Some c)) /\
    (forall y c, In (y, c) l -> nattr r y a = Some c) /\
    l_lists r = l_lists n /\ l_dicts r = l_dicts n /\ l_schemas r = l_schemas n).
  { clear. induction l as [|[x c] l IH]; intros n S; cbn zeta.
    - unfold set_attrs. simpl. repeat split; auto. intros y c [].
    - destruct (IH (set_attr n x a c)) as [H1 [H2 H3]]; [intros; apply S; now right|].
      change (set_attrs n a ((x, c) :: l)) with (set_attrs (set_attr n x a c) a l).
      cbn zeta in *. split; [|split; [|exact H3]].
      + intros y b. destruct (H1 y b) as [E|E]; [|now right].
        rewrite E, set_attr_get. destruct (key_eq_dec (y, b) (x, a)) as [K|]; [|now left].
        right. assert (y = x) by congruence. assert (b = a) by congruence. subst.
        destruct (S x c (or_introl eq_refl)). split; [reflexivity|]. split; [assumption|]. exists c. auto.
      + intros y c' [K|K]; [|auto]. assert (y = x) by congruence. assert (c' = c) by congruence. subst.
        destruct (H1 x a) as [E|[_ [_ [c' [E1 E2]]]]].
        * rewrite E, set_attr_get. destruct (key_eq_dec (x, a) (x, a)); congruence.
        * destruct (S x c (or_introl eq_refl)) as [_ E]. congruence. }
  destruct (G l n S1) as [H1 [H2 [H3 [H4 H5]]]]. cbn zeta in *. constructor; auto.
  - intros y b c E. destruct (H1 y b) as [K|[K1 [K2 [c' [K3 K4]]]]]; [left; congruence|].
    right. split; [exact K1|]. split; [exact K2|]. congruence.
  - intros y b c E. destruct (H1 y b) as [K|[K1 [K2 _]]]; [left; congruence|]. right. auto.
Qed.

Lemma combine_map_self {A B} (f : A -> B) l : combine l (map f l) = map (fun x => (x, f x)) l.
Proof. induction l as [|x l IH]; simpl; [reflexivity|f_equal; exact IH]. Qed.

Lemma set_skip_unset_written n objs a f lost :
  written n (set_skip_unset n objs a (map f objs)) objs a f lost.
Proof.
  unfold set_skip_unset. rewrite combine_map_self. apply set_attrs_written.
  - intros x c I. apply in_flat_map in I. destruct I as [[y v] [I J]]. apply in_map_iff in I.
    destruct I as [z [E I]]. assert (z = y) by congruence. assert (f z = v) by congruence. subst.
    cbn [fst snd] in J. destruct (f y) as [c'|] eqn:F; [destruct J as [J|[]]|destruct J].
    assert (y = x) by congruence. assert (c' = c) by congruence. subst. auto.
  - intros x c I E. apply in_flat_map. exists (x, f x). split; [apply in_map_iff; exists x; auto|].
    cbn [fst snd]. rewrite E. now left.
Qed.

Lemma find_key_filter {K V} dec (k : K) (g : K * V -> bool) l :
  (forall v v', g (k, v) = g (k, v')) ->
  find_key dec k (filter g l) = match find_key dec k l with
                                | Some v => if g (k, v) then Some v else None
                                | None => None
                                end.
Proof.
  intros G. induction l as [|[k' v] l IH]; simpl; [reflexivity|].
  destruct (dec k k') as [<-|N].
  - destruct (g (k, v)) eqn:E; simpl.
    + destruct (dec k k); congruence.
    + rewrite IH. destruct (find_key dec k l) as [v'|]; [|reflexivity]. rewrite (G v' v), E. reflexivity.
  - destruct (g (k', v)); simpl; [destruct (dec k k'); [congruence|]|]; exact IH.
Qed.

Lemma nth_map_seq {B} (f : nat -> B) d n i : i < n -> nth i (map f (seq 0 n)) d = f i.
Proof.
  intros H. rewrite (nth_indep _ d (f 0)) by (rewrite map_length, seq_length; exact H).
  rewrite map_nth, seq_nth by exact H. reflexivity.
Qed.

Lemma in_prefix al m y : In y (map (mkId al) (seq 0 m)) <-> i_alloc y = al /\ i_off y < m.
Proof.
  rewrite in_map_iff. split.
  - intros [i [<- I]]. apply in_seq in I. cbn. split; [reflexivity|lia].
  - intros [<- H]. exists (i_off y). split; [destruct y; reflexivity|apply in_seq; lia].
Qed.

Lemma set_full_written n al m a f :
  let objs := map (mkId al) (seq 0 m) in
  written n (set_full n al a (map f objs)) objs a f (fun y => i_alloc y = al /\ m <= i_off y).
Proof.
  intros objs. unfold set_full.
  destruct (existsb _ (map f objs)) eqn:X; cbn [negb].
  2:{ constructor; auto. intros y v I E. exfalso.
      assert (T : existsb (fun v : option cell => match v with Some (Some _) => true | _ => false end) (map f objs) = true).
      { apply existsb_exists. exists (f y). split; [apply in_map; exact I|]. rewrite E. reflexivity. }
      congruence. }
  destruct (_ || _).
  2:{ replace (List.length (map f objs)) with m by (unfold objs; rewrite !map_length, seq_length; reflexivity).
      apply set_skip_unset_written. }
  set (r := mkLayer _ _ _ _ _).
  assert (F : forall y b, nattr r y b = if string_dec b a then
                             if alloc_eq_dec (i_alloc y) al then
                               if le_lt_dec m (i_off y) then None else f y
                             else nattr n y b
                           else nattr n y b).
  { intros y b. unfold layer_attr, r. cbn [l_attrs l_dense].
    rewrite find_key_filter by reflexivity. cbn [fst snd].
    rewrite find_key_cons.
    destruct (akey_eq_dec (i_alloc y, b) (al, a)) as [K|K].
    - assert (i_alloc y = al) by congruence. assert (b = a) by congruence. subst.
      destruct (string_dec a a); [|congruence]. destruct (alloc_eq_dec (i_alloc y) (i_alloc y)); [|congruence].
      cbn [andb negb].
      assert (N : nth (i_off y) (map f objs) None = if le_lt_dec m (i_off y) then None else f y).
      { destruct (le_lt_dec m (i_off y)).
        - apply nth_overflow. unfold objs. rewrite !map_length, seq_length. assumption.
        - unfold objs. rewrite map_map. rewrite nth_map_seq by assumption. f_equal. destruct y; reflexivity. }
      destruct (find_key key_eq_dec (y, a) (l_attrs n)); exact N.
    - destruct (alloc_eq_dec al (i_alloc y)) as [E|E].
      + destruct (string_dec a b) as [E'|E'].
        { exfalso. apply K. congruence. }
        cbn [andb negb]. destruct (string_dec b a); [congruence|].
        destruct (find_key key_eq_dec (y, b) (l_attrs n)); reflexivity.
      + cbn [andb negb]. destruct (string_dec b a).
        * destruct (alloc_eq_dec (i_alloc y) al); [congruence|].
          destruct (find_key key_eq_dec (y, b) (l_attrs n)); reflexivity.
        * destruct (find_key key_eq_dec (y, b) (l_attrs n)); reflexivity. }
  constructor; try reflexivity.
  - intros y b c E. rewrite F in E. destruct (string_dec b a) as [->|]; [|now left].
    destruct (alloc_eq_dec (i_alloc y) al) as [K|]; [|now left].
    destruct (le_lt_dec m (i_off y)) as [|K2]; [discriminate|].
    right. split; [reflexivity|]. split; [apply in_prefix; auto|exact E].
  - intros y v I E. rewrite F. apply in_prefix in I. destruct I as [I J].
    destruct (string_dec a a); [|congruence]. destruct (alloc_eq_dec (i_alloc y) al); [|congruence].
    destruct (le_lt_dec m (i_off y)); [lia|exact E].
  - intros y b c E. rewrite F. destruct (string_dec b a) as [->|]; [|now left].
    destruct (alloc_eq_dec (i_alloc y) al) as [K|]; [|now left].
    right. split; [reflexivity|]. destruct (le_lt_dec m (i_off y)); [right; auto|left; apply in_prefix; auto].
Qed.

Lemma written_lost n r objs a f (lost lost' : id -> Prop) :
  written n r objs a f lost -> (forall y, lost y -> lost' y) -> written n r objs a f lost'.
Proof.
  intros [H1 H2 H3 H4 H5 H6] G. constructor; auto. intros y b c E.
  destruct (H3 y b c E) as [K|[K [K2|K2]]]; auto.
Qed.

(** Lists. *)
Lemma extend_lists_get (g : id -> option (list cell)) objs : forall n, NoDup objs -> (forall x, In x objs -> nlist n x = None) ->
  let r := fold_left (fun n e => extend_list n (fst e) (snd e))
             (flat_map (fun x => match g x with Some l => [(x, l)] | None => [] end) objs) n in
  (forall y, nlist r y = if in_dec id_eq_dec y objs then g y else nlist n y) /\
  l_attrs r = l_attrs n /\ l_dense r = l_dense n /\ l_dicts r = l_dicts n /\ l_schemas r = l_schemas n.
Proof.
  induction objs as [|x objs IH]; intros n ND H; cbn zeta.
  - simpl. repeat split; reflexivity.
  - inversion ND as [|? ? N ND']; subst. cbn [flat_map].
    destruct (g x) as [l|] eqn:G.
    + cbn [app fold_left fst snd]. destruct (IH (extend_list n x l) ND') as [I1 [I2 [I3 [I4 I5]]]].
      { intros y I. unfold extend_list. cbn [l_lists]. rewrite find_key_cons.
        destruct (id_eq_dec y x); [congruence|]. apply H. now right. }
      cbn zeta in *. split; [|repeat split; assumption].
      intros y. rewrite I1. unfold extend_list. cbn [l_lists]. rewrite find_key_cons.
      rewrite (H x) by now left. cbn [app].
      destruct (in_dec id_eq_dec y objs) as [J|J].
      * destruct (in_dec id_eq_dec y (x :: objs)) as [_|J2]; [reflexivity|exfalso; apply J2; now right].
      * destruct (id_eq_dec y x) as [->|NE].
        { destruct (in_dec id_eq_dec x (x :: objs)) as [_|J2]; [congruence|exfalso; apply J2; now left]. }
        destruct (in_dec id_eq_dec y (x :: objs)) as [[E|J2]|_]; [congruence|contradiction|reflexivity].
    + cbn [app]. destruct (IH n ND') as [I1 I2]; [intros; apply H; now right|].
      cbn zeta in *. split; [|exact I2]. intros y. rewrite I1.
      destruct (in_dec id_eq_dec y objs) as [J|J].
      * destruct (in_dec id_eq_dec y (x :: objs)) as [_|J2]; [reflexivity|exfalso; apply J2; now right].
      * destruct (in_dec id_eq_dec y (x :: objs)) as [[E|J2]|_]; [|contradiction|reflexivity].
        subst. rewrite (H y) by now left. congruence.
Qed.

(** Dicts. *)
Lemma set_dicts_get (g : id * item -> cell) entries : forall n,
  let r := fold_left (fun n e => set_dict n (fst (fst e)) (snd (fst e)) (snd e))
             (combine entries (map g entries)) n in
  (forall x k, ndict r x k = if in_dec dkey_eq_dec (x, k) entries then Some (g (x, k)) else ndict n x k) /\
  l_attrs r = l_attrs n /\ l_dense r = l_dense n /\ l_lists r = l_lists n /\ l_schemas r = l_schemas n.
Proof.
  induction entries as [|[x0 k0] entries IH]; intros n; cbn zeta.
  - simpl. repeat split; reflexivity.
  - cbn [map combine fold_left fst snd]. destruct (IH (set_dict n x0 k0 (g (x0, k0)))) as [I1 I2].
    cbn zeta in *. split; [|exact I2]. intros x k. rewrite I1. unfold set_dict. cbn [l_dicts].
    rewrite find_key_cons.
    destruct (in_dec dkey_eq_dec (x, k) entries) as [J|J].
    + destruct (in_dec dkey_eq_dec (x, k) ((x0, k0) :: entries)) as [_|J2]; [reflexivity|exfalso; apply J2; now right].
    + destruct (dkey_eq_dec (x, k) (x0, k0)) as [E|NE].
      * destruct (in_dec dkey_eq_dec (x, k) ((x0, k0) :: entries)) as [_|J2]; [congruence|exfalso; apply J2; left; congruence].
      * destruct (in_dec dkey_eq_dec (x, k) ((x0, k0) :: entries)) as [[E|J2]|_]; [congruence|contradiction|reflexivity].
Qed.

(** Schemas. *)
Lemma set_schema_get n s a c s' a' :
  nsch (set_schema n s a c) s' a' = if key_eq_dec (s', a') (s, a) then Some c else nsch n s' a'.
Proof. unfold set_schema. cbn [l_schemas]. apply find_key_cons. Qed.

Lemma set_schemas_get (f : id -> option cell) a ss : forall n,
  let r := fold_left (fun n e => match e with (Some s, Some c) => set_schema n s a c | _ => n end)
             (combine (map Some ss) (map f ss)) n in
  (forall s' a', nsch r s' a' =
     if string_dec a' a then if in_dec id_eq_dec s' ss then match f s' with Some c => Some c | None => nsch n s' a' end
                             else nsch n s' a'
     else nsch n s' a') /\
  l_attrs r = l_attrs n /\ l_dense r = l_dense n /\ l_lists r = l_lists n /\ l_dicts r = l_dicts n.
Proof.
  induction ss as [|s ss IH]; intros n; cbn zeta.
  - simpl. split; [|repeat split; reflexivity]. intros. destruct (string_dec a' a); reflexivity.
  - cbn [map combine fold_left].
    set (n1 := match f s with Some c => set_schema n s a c | None => n end).
    destruct (IH n1) as [I1 I2]. cbn zeta in *. split.
    + intros s' a'. rewrite I1.
      assert (E1 : nsch n1 s' a' = match f s with
                                   | Some c => if key_eq_dec (s', a') (s, a) then Some c else nsch n s' a'
                                   | None => nsch n s' a' end).
      { unfold n1. destruct (f s); [apply set_schema_get|reflexivity]. }
      rewrite E1. clear E1.
      destruct (string_dec a' a) as [->|NE].
      * destruct (in_dec id_eq_dec s' ss) as [J|J].
        { destruct (in_dec id_eq_dec s' (s :: ss)) as [_|J2]; [|exfalso; apply J2; now right].
          destruct (f s') eqn:F; [reflexivity|]. destruct (f s) eqn:F2; [|reflexivity].
          destruct (key_eq_dec (s', a) (s, a)); [|reflexivity]. congruence. }
        destruct (in_dec id_eq_dec s' (s :: ss)) as [[K|K]|K].
        -- subst s'. destruct (f s); [|reflexivity]. destruct (key_eq_dec (s, a) (s, a)); congruence.
        -- contradiction.
        -- destruct (f s); [|reflexivity]. destruct (key_eq_dec (s', a) (s, a)) as [K2|]; [|reflexivity].
           exfalso. apply K. left. congruence.
      * destruct (f s); [|reflexivity]. destruct (key_eq_dec (s', a') (s, a)); [congruence|reflexivity].
    + destruct I2 as [? [? [? ?]]]. unfold n1 in *. destruct (f s); cbn in *; repeat split; assumption.
Qed.

(** ** The values of whole allocations *)

Lemma scan_plain al a n : forall b full dense full' o,
  scan_sources al a n b full dense = (full', inr o) ->
  (forall l, In l b -> forall x, i_alloc x = al -> find_key key_eq_dec (x, a) (l_attrs l) = None) /\
  match o with
  | None => dense = None /\ forall l, In l b -> find_key akey_eq_dec (al, a) (l_dense l) = None
  | Some d => (dense = Some d /\ forall l, In l b -> find_key akey_eq_dec (al, a) (l_dense l) = None) \/
              (dense = None /\ exists l b1 b2, b = b1 ++ l :: b2 /\
                 find_key akey_eq_dec (al, a) (l_dense l) = Some d /\
                 (forall l', In l' (b1 ++ b2) -> find_key akey_eq_dec (al, a) (l_dense l') = None))
  end.
Proof.
  induction b as [|l b IH]; intros full dense full' o E.
  - cbn in E. assert (o = dense) by congruence. subst o. split; [intros l []|].
    destruct dense; [left|]; (split; [reflexivity|intros ? []]).
  - cbn [scan_sources] in E. unfold sources in E.
    destruct (existsb _ (l_attrs l)) eqn:X; [discriminate|].
    assert (NS : forall x, i_alloc x = al -> find_key key_eq_dec (x, a) (l_attrs l) = None).
    { intros x <-. apply find_key_none. intros I. apply in_map_iff in I. destruct I as [[[x' a'] c] [K I]].
      cbn [fst] in K. assert (x' = x) by congruence. assert (a' = a) by congruence. subst.
      assert (T : existsb (fun e : id * string * cell => (if alloc_eq_dec (i_alloc x) (i_alloc (fst (fst e))) then true else false) &&
                     (if string_dec a (snd (fst e)) then true else false)) (l_attrs l) = true).
      { apply existsb_exists. exists ((x, a), c). split; [exact I|]. cbn [fst snd].
        destruct (alloc_eq_dec (i_alloc x) (i_alloc x)); [|congruence]. destruct (string_dec a a); [reflexivity|congruence]. }
      congruence. }
    destruct dense as [d0|].
    + destruct (find_key akey_eq_dec (al, a) (l_dense l)) as [d1|] eqn:D; [discriminate|].
      destruct (IH _ _ _ _ E) as [I1 I2]. split; [intros l' [<-|I]; auto|].
      destruct o as [d|]; [|destruct I2; discriminate].
      destruct I2 as [[K I2]|[K _]]; [|discriminate]. left. split; [exact K|]. intros l' [<-|I]; auto.
    + destruct (IH _ _ _ _ E) as [I1 I2]. split; [intros l' [<-|I]; auto|].
      destruct (find_key akey_eq_dec (al, a) (l_dense l)) as [d1|] eqn:D.
      * destruct o as [d|]; [|destruct I2; discriminate].
        destruct I2 as [[K I2]|[K _]]; [|discriminate]. right. split; [reflexivity|].
        exists l, [], b. split; [reflexivity|]. split; [congruence|]. exact I2.
      * destruct o as [d|].
        { destruct I2 as [[K _]|[_ [l0 [b1 [b2 [K1 [K2 K3]]]]]]]; [discriminate|]. right. split; [reflexivity|].
          exists l0, (l :: b1), b2. subst b. split; [reflexivity|]. split; [exact K2|].
          intros l' [<-|I]; auto. }
        { destruct I2 as [_ I2]. split; [reflexivity|]. intros l' [<-|I]; auto. }
Qed.

Lemma scan_full al a n : forall b full dense full' r,
  scan_sources al a n b full dense = (full', r) -> full' = true ->
  full = true \/ n = a_cap al \/
  exists l vs, In l b /\ In ((al, a), vs) (l_dense l) /\ List.length vs = n.
Proof.
  induction b as [|l b IH]; intros full dense full' r E T.
  - cbn in E. left. congruence.
  - cbn [scan_sources] in E. unfold sources in E.
    set (sz := match find_key akey_eq_dec (al, a) (l_dense l) with Some vs => List.length vs | None => a_cap al end) in E.
    assert (G : full || (sz =? n) = true -> full = true \/ n = a_cap al \/
       exists l0 vs, In l0 (l :: b) /\ In ((al, a), vs) (l_dense l0) /\ List.length vs = n).
    { intros H. destruct full; [now left|]. cbn in H. apply Nat.eqb_eq in H. unfold sz in H.
      destruct (find_key akey_eq_dec (al, a) (l_dense l)) as [vs|] eqn:D; [|right; left; congruence].
      right. right. exists l, vs. split; [now left|]. split; [apply (find_key_in _ _ _ _ D)|exact H]. }
    destruct (existsb _ (l_attrs l)).
    { apply G. congruence. }
    assert (H : full || (sz =? n) = true \/ n = a_cap al \/
       exists l0 vs, In l0 b /\ In ((al, a), vs) (l_dense l0) /\ List.length vs = n).
    { destruct dense; destruct (find_key akey_eq_dec (al, a) (l_dense l)).
      - left. congruence.
      - apply (IH _ _ _ _ E T).
      - apply (IH _ _ _ _ E T).
      - apply (IH _ _ _ _ E T). }
    destruct H as [H|[H|[l0 [vs [H1 H2]]]]]; [auto|auto|].
    right. right. exists l0, vs. split; [now right|exact H2].
Qed.

Lemma get_attr_dense b x a al b1 l b2 d :
  i_alloc x = al -> b = b1 ++ l :: b2 ->
  (forall l, In l b -> find_key key_eq_dec (x, a) (l_attrs l) = None) ->
  find_key akey_eq_dec (al, a) (l_dense l) = Some d ->
  (forall l', In l' (b1 ++ b2) -> find_key akey_eq_dec (al, a) (l_dense l') = None) ->
  get_attr b x a = nth (i_off x) d None.
Proof.
  intros <- -> S D N. unfold get_attr.
  assert (E : forall l', In l' (b1 ++ b2) -> layer_attr x a l' = None).
  { intros l' I. unfold layer_attr. rewrite S, (N l' I); [reflexivity|].
    rewrite in_app_iff in *. cbn. tauto. }
  assert (El : layer_attr x a l = nth (i_off x) d None).
  { unfold layer_attr. rewrite S, D; [reflexivity|]. rewrite in_app_iff. cbn. tauto. }
  clear S D N. induction b1 as [|l1 b1 IH]; cbn.
  - rewrite El. destruct (nth (i_off x) d None); [reflexivity|]. apply first_of_none. exact E.
  - rewrite (E l1) by now left. apply IH. intros l' I. apply E. now right.
Qed.

Lemma firstn_nth {B} (d : list B) dv n : n <= List.length d -> firstn n d = map (fun i => nth i d dv) (seq 0 n).
Proof.
  revert n. induction d as [|v d IH]; intros n H.
  - cbn in H. assert (n = 0) by lia. subst. reflexivity.
  - destruct n as [|n]; [reflexivity|]. cbn [firstn seq map nth]. f_equal. cbn in H. rewrite IH by lia.
    rewrite <- seq_shift, map_map. reflexivity.
Qed.

(** ** The invariant *)

Section Correct.
  Variables (src : bag) (ds : list item) (sch : item) (real : alloc -> nat).
  Hypothesis W : well_formed src ds sch real.

  Notation R := (reach src ds sch).

  Definition full_ok (objs : list id) (full : bool) : Prop :=
    full = true -> exists al, objs = map (mkId al) (seq 0 (List.length objs)) /\ List.length objs = real al.

  Definition is_data (x : id) : Prop := exists s, R (Inst x s).

  Lemma object_data x : R (Obj x) -> is_data x.
  Proof.
    intros H. destruct (w_object _ _ _ _ W x H) as [s [E _]]. exists s. apply (reach_object _ _ _ x s H E).
  Qed.

  Lemma prefix_real al m : (forall x, In x (map (mkId al) (seq 0 m)) -> is_data x) -> m <= real al.
  Proof.
    intros H. destruct m as [|m]; [lia|].
    destruct (H (mkId al m)) as [s Rx].
    - apply in_prefix. cbn. split; [reflexivity|lia].
    - pose proof (w_offset _ _ _ _ W _ _ Rx). cbn in H0. lia.
  Qed.

  Lemma full_prefix_inv objs : full_prefix objs = true ->
    exists x r, objs = x :: r /\ objs = map (mkId (i_alloc x)) (seq 0 (List.length objs)).
  Proof.
    intros H. destruct objs as [|x r]; [discriminate|]. exists x, r. split; [reflexivity|].
    cbn [full_prefix] in H. apply andb_true_iff in H. destruct H as [_ H].
    destruct (list_eq_dec _ _ _) as [E|]; [exact E|discriminate].
  Qed.

  Lemma get_maybe_full_ok objs a full :
    (forall x, In x objs -> is_data x) -> full_ok objs full ->
    exists full', get_maybe_full src objs a full = (map (fun x => get_attr src x a) objs, full') /\
      full_ok objs full'.
  Proof.
    intros HD HF. unfold get_maybe_full. destruct objs as [|x0 r0].
    { exists full. destruct (negb full && _); auto. }
    cbv iota. remember (x0 :: r0) as objs eqn:EO.
    destruct (negb full && negb (full_prefix objs)) eqn:P; [exists full; auto|].
    assert (PX : exists al, objs = map (mkId al) (seq 0 (List.length objs))).
    { destruct full.
      - destruct (HF eq_refl) as [al [E _]]. exists al. exact E.
      - cbn [negb andb] in P. apply negb_false_iff in P. apply full_prefix_inv in P. destruct P as [x [r [_ E]]].
        exists (i_alloc x). exact E. }
    destruct PX as [al PX].
    set (m := List.length objs) in *.
    assert (HM : m <= real al) by (apply prefix_real; rewrite <- PX; exact HD).
    assert (Ea : i_alloc x0 = al).
    { assert (I : In x0 (map (mkId al) (seq 0 m))) by (rewrite <- PX, EO; now left).
      apply in_prefix in I. tauto. }
    rewrite Ea.
    destruct (scan_sources al a m src full None) as [full' o] eqn:SC.
    assert (HF' : full_ok objs full').
    { intros T. destruct (scan_full _ _ _ _ _ _ _ _ SC T) as [F|[F|[l [vs [F1 [F2 F3]]]]]].
      - apply HF. exact F.
      - exists al. split; [exact PX|]. pose proof (w_capacity _ _ _ _ W al). fold m. lia.
      - exists al. split; [exact PX|]. pose proof (w_capacity _ _ _ _ W al).
        pose proof (w_dense _ _ _ _ W l al a vs F1 F2). fold m. lia. }
    destruct o as [[]|o].
    { exists full'. auto. }
    destruct (scan_plain _ _ _ _ _ _ _ _ SC) as [S1 S2].
    destruct o as [d|].
    - exists full'. split; [|exact HF']. f_equal.
      destruct S2 as [[S2 _]|[_ [l [b1 [b2 [S2 [S3 S4]]]]]]]; [discriminate|].
      assert (LD : m <= List.length d).
      { pose proof (w_capacity _ _ _ _ W al).
        assert (In l src) by (rewrite S2, in_app_iff; right; now left).
        pose proof (w_dense _ _ _ _ W l al a d H0 (find_key_in _ _ _ _ S3)). lia. }
      rewrite (firstn_nth d None m LD). rewrite PX at 1. rewrite map_map. apply map_ext_in.
      intros i I. symmetry.
      apply (get_attr_dense src (mkId al i) a al b1 l b2 d eq_refl S2 (fun l0 I0 => S1 l0 I0 (mkId al i) eq_refl) S3 S4).
    - exists full'. split; [|exact HF']. f_equal. apply map_ext_in. intros x I.
      destruct S2 as [_ S2]. symmetry. unfold get_attr. apply first_of_none. intros l Il.
      assert (i_alloc x = al) by (rewrite PX in I; apply in_prefix in I; tauto).
      unfold layer_attr. rewrite (S1 l Il x H), H, (S2 l Il). reflexivity.
  Qed.

  (** What a slice of the queue is going to cover. *)
  Definition pend (q : queued) (n : node) : Prop :=
    match n with
    | Inst x s => In x (q_items q) /\ q_only q = false /\
        (q_schema q = IId s \/ (q_schema q = IDType TObject /\ value src x kSchemaAttr = Some (IId s)))
    | Obj x => In x (q_items q) /\ q_schema q = IDType TObject
    | Sch s => q_schema q = IId s \/ (q_schema q = IDType TSchema /\ In s (q_items q)) \/
        (q_schema q = IDType TObject /\ q_only q = false /\
         exists x, In x (q_items q) /\ value src x kSchemaAttr = Some (IId s))
    end.

  Definition qok (q : queued) : Prop :=
    match q_schema q with
    | IId s => q_only q = false /\ R (Sch s) /\ forall x, In x (q_items q) -> R (Inst x s)
    | IDType TObject => forall x, In x (q_items q) -> R (Obj x)
    | IDType TSchema => forall x, In x (q_items q) -> R (Sch x)
    | _ => False
    end.

  Definition data_items (q : queued) : list id := if q_only q then [] else q_items q.

  Definition cov (C : node -> Prop) (st : state) (n : node) : Prop :=
    C n \/ exists q, In q (s_queue st) /\ pend q n.

  Record Inv (C : node -> Prop) (L E : list id) (st : state) : Prop := {
    i_q q : In q (s_queue st) -> qok q;
    i_nodup : NoDup (flat_map data_items (s_queue st));
    i_disj x : In x (flat_map data_items (s_queue st)) -> ~ In x L;
    i_seen_q q : In q (s_queue st) -> incl (q_items q) (s_seen st);
    i_seen_l : incl L (s_seen st);
    i_seen x s : In x (s_seen st) -> R (Inst x s) -> cov C st (Inst x s);
    i_obj x : In x (s_seen_obj st) -> R (Obj x) -> cov C st (Obj x);
    i_objs x : In x (s_seen_obj st) -> R (Sch x) -> cov C st (Sch x);
    i_sch s : In s (s_seen_schema st) -> cov C st (Sch s);
    i_attr x a c : nattr (s_new st) x a = Some c ->
      get_attr src x a = Some c /\ (c <> None -> attr_scope src ds sch x a);
    i_list x l : nlist (s_new st) x = Some l ->
      get_list src x = Some l /\ list_scope src ds sch x /\ In x E;
    i_dict x k c : ndict (s_new st) x k = Some c -> get_dict src x k = Some c /\ dict_scope src ds sch x;
    i_schm s a c : nsch (s_new st) s a = Some c -> get_schema src s a = Some c /\ R (Sch s) /\ follow s }.

  (** The state only grows. *)
  Record ext (st st' : state) : Prop := {
    x_queue : incl (s_queue st) (s_queue st');
    x_seen : incl (s_seen st) (s_seen st');
    x_val x a v : nval (s_new st) x a = Some v -> nval (s_new st') x a = Some v;
    x_list x l : nlist (s_new st) x = Some l -> nlist (s_new st') x = Some l;
    x_dict x k c : ndict (s_new st) x k = Some c -> ndict (s_new st') x k = Some c;
    x_schm s a c : nsch (s_new st) s a = Some c -> nsch (s_new st') s a = Some c }.

  Lemma ext_refl st : ext st st.
  Proof. constructor; auto using incl_refl. Qed.
  Lemma ext_trans st1 st2 st3 : ext st1 st2 -> ext st2 st3 -> ext st1 st3.
  Proof. intros [] []. constructor; eauto using incl_tran. Qed.

  Lemma cov_ext C st st' n : incl (s_queue st) (s_queue st') -> cov C st n -> cov C st' n.
  Proof. intros H [K|[q [K1 K2]]]; [now left|right]. exists q. auto. Qed.

  Lemma sch_not_data x s : R (Inst x s) -> R (Sch x) -> False.
  Proof. intros H1 H2. apply (w_data _ _ _ _ W x s H1). apply (w_schema _ _ _ _ W x H2). Qed.
  Lemma sch_not_obj x : R (Obj x) -> R (Sch x) -> False.
  Proof. intros H1 H2. destruct (object_data x H1) as [s K]. apply (sch_not_data x s K H2). Qed.

  (** Adding slices to the queue. *)
  Lemma Inv_grow C L E st qs queue' seen' so' ss' :
    Inv C L E st ->
    Permutation queue' (qs ++ s_queue st) ->
    (forall q, In q qs -> qok q) ->
    NoDup (flat_map data_items qs) ->
    (forall x, In x (flat_map data_items qs) -> ~ In x (s_seen st)) ->
    incl (s_seen st) seen' ->
    (forall q, In q qs -> incl (q_items q) seen') ->
    (forall x, In x seen' -> In x (s_seen st) \/
       forall s, R (Inst x s) -> exists q, In q qs /\ pend q (Inst x s)) ->
    (forall x, In x so' -> In x (s_seen_obj st) \/
       ((R (Obj x) -> exists q, In q qs /\ pend q (Obj x)) /\
        (R (Sch x) -> exists q, In q qs /\ pend q (Sch x)))) ->
    (forall s, In s ss' -> In s (s_seen_schema st) \/ exists q, In q qs /\ pend q (Sch s)) ->
    Inv C L E (mkState (s_new st) queue' seen' so' ss').
  Proof.
    intros I P Q1 Q2 Q3 S1 S2 S3 S4 S5.
    assert (IQ : forall q, In q queue' <-> In q qs \/ In q (s_queue st)).
    { intros q. rewrite <- in_app_iff. split; apply Permutation_in; [|apply Permutation_sym]; exact P. }
    assert (CV : forall n, cov C st n -> cov C (mkState (s_new st) queue' seen' so' ss') n).
    { intros n. apply cov_ext. intros q H. cbn. apply IQ. auto. }
    assert (CN : forall n, (exists q, In q qs /\ pend q n) -> cov C (mkState (s_new st) queue' seen' so' ss') n).
    { intros n [q [H1 H2]]. right. exists q. cbn. split; [apply IQ; auto|exact H2]. }
    pose proof (Permutation_flat_map data_items P) as PF. rewrite flat_map_app in PF.
    assert (QS : forall x, In x (flat_map data_items (s_queue st)) -> In x (s_seen st)).
    { intros x H. apply in_flat_map in H. destruct H as [q [H1 H2]]. apply (i_seen_q _ _ _ _ I q H1).
      unfold data_items in H2. destruct (q_only q); [destruct H2|exact H2]. }
    constructor; cbn [s_new s_queue s_seen s_seen_obj s_seen_schema].
    - intros q H. apply IQ in H. destruct H as [H|H]; [auto|apply (i_q _ _ _ _ I q H)].
    - apply (Permutation_NoDup (Permutation_sym PF)).
      pose proof (i_nodup _ _ _ _ I) as N.
      clear - Q2 Q3 N QS. induction (flat_map data_items qs) as [|x l IH]; [exact N|].
      inversion Q2; subst. cbn. constructor; [|apply IH; [assumption|intros; apply Q3; now right]].
      rewrite in_app_iff. intros [K|K]; [contradiction|]. apply (Q3 x (or_introl eq_refl)). apply QS. exact K.
    - intros x H. apply (Permutation_in x PF) in H. apply in_app_iff in H. destruct H as [H|H].
      + intros K. apply (Q3 x H). apply (i_seen_l _ _ _ _ I). exact K.
      + apply (i_disj _ _ _ _ I x H).
    - intros q H. apply IQ in H. destruct H as [H|H]; [auto|].
      apply (incl_tran (i_seen_q _ _ _ _ I q H) S1).
    - apply (incl_tran (i_seen_l _ _ _ _ I) S1).
    - intros x s H K. destruct (S3 x H) as [H1|H1]; [apply CV, (i_seen _ _ _ _ I x s H1 K)|apply CN, (H1 s K)].
    - intros x H K. destruct (S4 x H) as [H1|[H1 _]]; [apply CV, (i_obj _ _ _ _ I x H1 K)|apply CN, (H1 K)].
    - intros x H K. destruct (S4 x H) as [H1|[_ H1]]; [apply CV, (i_objs _ _ _ _ I x H1 K)|apply CN, (H1 K)].
    - intros s H. destruct (S5 s H) as [H1|H1]; [apply CV, (i_sch _ _ _ _ I s H1)|apply CN, H1].
    - apply (i_attr _ _ _ _ I).
    - apply (i_list _ _ _ _ I).
    - apply (i_dict _ _ _ _ I).
    - apply (i_schm _ _ _ _ I).
  Qed.

  Lemma missing_in seen objs x : In x (missing seen objs) <-> In x objs /\ ~ In x seen.
  Proof.
    unfold missing. rewrite nodup_In, filter_In. destruct (in_dec id_eq_dec x seen); intuition congruence.
  Qed.
  Lemma missing_nodup seen objs : NoDup (missing seen objs).
  Proof. apply NoDup_nodup. Qed.

  Lemma ids_of_in x items : In x (ids_of items) <-> In (IId x) items.
  Proof.
    unfold ids_of. rewrite in_flat_map. split.
    - intros [[y|t v|t] [H K]]; [|destruct K|destruct K]. destruct K as [<-|[]]. exact H.
    - intros H. exists (IId x). split; [exact H|now left].
  Qed.

  Definition visit_post (C : node -> Prop) (L E : list id) (st st' : state) (items : list item) (t : item) : Prop :=
    Inv C L E st' /\ incl (s_queue st) (s_queue st') /\ incl (s_seen st) (s_seen st') /\ s_new st' = s_new st /\
    (forall it n, In it items -> enters it t n -> cov C st' n) /\
    (forall s, t = IId s -> cov C st' (Sch s)).

  Lemma visit_entities_ok C L E st items s front :
    Inv C L E st ->
    (forall it, In it items -> fits it (IId s)) ->
    (forall it n, In it items -> enters it (IId s) n -> R n) ->
    R (Sch s) ->
    exists st', visit_entities st items s front = Ok st' /\ visit_post C L E st st' items (IId s).
  Proof.
    intros I F G RS. unfold visit_entities.
    assert (FB : forallb is_id items = true).
    { apply forallb_forall. intros it H. destruct (F it H) as [x ->]. reflexivity. }
    rewrite FB. cbn [negb s_seen s_new s_queue s_seen_obj s_seen_schema].
    set (new := missing (s_seen st) (ids_of items)).
    assert (RI : forall x, In x (ids_of items) -> R (Inst x s)).
    { intros x H. apply ids_of_in in H. apply (G _ _ H). constructor. }
    destruct (match new with [] => true | _ => false end &&
              (if in_dec id_eq_dec s (s_seen_schema st) then true else false)) eqn:B.
    - apply andb_true_iff in B. destruct B as [B1 B2].
      destruct new as [|y new'] eqn:EN; [|discriminate].
      destruct (in_dec id_eq_dec s (s_seen_schema st)) as [IS|]; [|discriminate].
      eexists. split; [reflexivity|]. rewrite app_nil_r.
      assert (SE : mkState (s_new st) (s_queue st) (s_seen st) (s_seen_obj st) (s_seen_schema st) = st) by (destruct st; reflexivity).
      rewrite SE. split; [exact I|]. split; [apply incl_refl|]. split; [apply incl_refl|]. split; [reflexivity|]. split.
      + intros it n H K. destruct (F it H) as [x ->]. inversion K; subst.
        apply (i_seen _ _ _ _ I); [|apply (G _ _ H K)].
        destruct (in_dec id_eq_dec x (s_seen st)) as [J|J]; [exact J|].
        assert (In x new) by (apply missing_in; split; [apply ids_of_in; exact H|exact J]).
        unfold new in H0. fold new in H0. rewrite EN in H0. destruct H0.
      + intros s' Es. assert (s' = s) by congruence. subst. apply (i_sch _ _ _ _ I s IS).
    - clear B. set (q := mkQ new (IId s) false).
      eexists. split; [reflexivity|].
      set (queue' := if front then q :: s_queue st else s_queue st ++ [q]).
      assert (P : Permutation queue' ([q] ++ s_queue st)).
      { unfold queue'. destruct front; [apply Permutation_refl|]. apply Permutation_app_comm. }
      change (enqueue _ _ _) with (mkState (s_new st) queue' (s_seen st ++ new) (s_seen_obj st) (s :: s_seen_schema st)).
      assert (I' : Inv C L E (mkState (s_new st) queue' (s_seen st ++ new) (s_seen_obj st) (s :: s_seen_schema st))).
      { apply (Inv_grow C L E st [q]); auto.
        - intros q' [<-|[]]. cbn. split; [reflexivity|]. split; [exact RS|].
          intros x H. apply RI. apply missing_in in H. tauto.
        - cbn. rewrite app_nil_r. apply missing_nodup.
        - cbn. rewrite app_nil_r. intros x H. apply missing_in in H. tauto.
        - intros x H. apply in_app_iff. now left.
        - intros q' [<-|[]] x H. apply in_app_iff. right. exact H.
        - intros x H. apply in_app_iff in H. destruct H as [H|H]; [now left|right].
          intros s' K. exists q. split; [now left|]. cbn. split; [exact H|]. split; [reflexivity|]. left.
          apply missing_in in H. destruct H as [H _].
          rewrite (w_one _ _ _ _ W x s' s K (RI x H)). reflexivity.
        - intros s' [<-|H]; [right|now left]. exists q. split; [now left|]. cbn. now left. }
      split; [exact I'|]. split; [|split; [|split; [reflexivity|split]]].
      + intros q' H. cbn. apply (Permutation_in q' (Permutation_sym P)). now right.
      + intros x H. cbn. apply in_app_iff. now left.
      + intros it n H K. destruct (F it H) as [x ->]. inversion K; subst.
        apply (i_seen _ _ _ _ I'); [|apply (G _ _ H K)]. cbn. apply in_app_iff.
        destruct (in_dec id_eq_dec x (s_seen st)) as [J|J]; [now left|right].
        apply missing_in. split; [apply ids_of_in; exact H|exact J].
      + intros s' Es. assert (s' = s) by congruence. subst. apply (i_sch _ _ _ _ I'). cbn. now left.
  Qed.

  Lemma visit_objects_ok C L E st items (o : bool) front :
    let t := IDType (if o then TObject else TSchema) in
    Inv C L E st ->
    (forall it n, In it items -> enters it t n -> R n) ->
    exists st', visit_objects st items t front = Ok st' /\ visit_post C L E st st' items t.
  Proof.
    intros t I G. unfold visit_objects.
    set (part := missing (s_seen_obj st) (ids_of items)).
    assert (RI : forall x, In x (ids_of items) -> R (if o then Obj x else Sch x)).
    { intros x H. apply ids_of_in in H. apply (G _ _ H). unfold t. destruct o; constructor. }
    assert (CO : forall st', Inv C L E st' -> (forall x, In x (s_seen_obj st) \/ In x part -> In x (s_seen_obj st')) ->
      (forall it n, In it items -> enters it t n -> cov C st' n) /\
      (forall s, t = IId s -> cov C st' (Sch s))).
    { intros st' I' S. split; [|unfold t; intros; discriminate].
      intros it n H K. assert (exists x, it = IId x) by (inversion K; eauto). destruct H0 as [x ->].
      assert (Sx : In x (s_seen_obj st')).
      { apply S. destruct (in_dec id_eq_dec x (s_seen_obj st)); [now left|right].
        apply missing_in. split; [apply ids_of_in; exact H|assumption]. }
      pose proof (G _ _ H K) as Rn. unfold t in K. destruct o; inversion K; subst.
      - apply (i_obj _ _ _ _ I' x Sx Rn).
      - apply (i_objs _ _ _ _ I' x Sx Rn). }
    destruct part as [|p0 part0] eqn:EP.
    { eexists. split; [reflexivity|]. split; [exact I|]. split; [apply incl_refl|]. split; [apply incl_refl|].
      split; [reflexivity|]. apply CO; [exact I|]. intros x [H|[]]. exact H. }
    rewrite <- EP in *. clear p0 part0 EP.
    assert (PN : NoDup part) by apply missing_nodup.
    set (new := missing (s_seen st) part).
    eexists. split; [reflexivity|]. cbn [s_seen s_new s_queue s_seen_obj s_seen_schema].
    set (q1 := mkQ part t true). set (q2 := mkQ new t false).
    set (st1 := if List.length new =? List.length part then _ else _).
    set (st2 := match new with [] => _ | _ => _ end).
    set (qs := (match new with [] => [] | _ => [q2] end) ++ (if List.length new =? List.length part then [] else [q1])).
    assert (E2 : exists queue', Permutation queue' (qs ++ s_queue st) /\
      st2 = mkState (s_new st) queue' (s_seen st ++ new) (s_seen_obj st ++ part) (s_seen_schema st)).
    { assert (E1 : exists queue', Permutation queue' ((if List.length new =? List.length part then [] else [q1]) ++ s_queue st) /\
        st1 = mkState (s_new st) queue' (s_seen st ++ new) (s_seen_obj st ++ part) (s_seen_schema st)).
      { unfold st1. destruct (List.length new =? List.length part).
        - eexists. split; [|reflexivity]. apply Permutation_refl.
        - eexists. split; [|reflexivity]. cbn. destruct front; [apply Permutation_refl|].
          apply Permutation_sym, Permutation_cons_append. }
      destruct E1 as [qq [P1 E1]]. unfold st2, qs. destruct new as [|y new'] eqn:EN.
      - exists qq. split; [exact P1|exact E1].
      - rewrite E1. eexists. split; [|reflexivity]. cbn [s_queue enqueue s_new s_seen s_seen_obj s_seen_schema].
        fold q2. destruct front.
        + cbn. apply perm_skip. exact P1.
        + cbn. apply (Permutation_trans (Permutation_sym (Permutation_cons_append _ _))). apply perm_skip. exact P1. }
    destruct E2 as [queue' [P E2]].
    assert (QIN : forall q, In q qs -> (q = q2 /\ new <> []) \/ q = q1).
    { intros q H. unfold qs in H. apply in_app_iff in H. destruct H as [H|H].
      - destruct new; [destruct H|]. destruct H as [<-|[]]. left. split; [reflexivity|discriminate].
      - destruct (List.length new =? List.length part); [destruct H|]. destruct H as [<-|[]]. now right. }
    assert (DI : flat_map data_items qs = new).
    { unfold qs. rewrite flat_map_app. destruct (List.length new =? List.length part); destruct new; cbn; rewrite ?app_nil_r; reflexivity. }
    assert (NP : forall x, In x new <-> In x part /\ ~ In x (s_seen st)) by (intros; apply missing_in).
    assert (PR : forall x, In x part -> R (if o then Obj x else Sch x)).
    { intros x H. apply RI. apply missing_in in H. tauto. }
    assert (N2 : forall x, In x new -> In q2 qs).
    { intros x H. unfold qs. destruct new; [destruct H|]. now left. }
    assert (QP : forall x, In x part -> exists q, In q qs /\ In x (q_items q) /\ q_schema q = t).
    { intros x H. destruct (in_dec id_eq_dec x new) as [J|J].
      - exists q2. split; [apply (N2 x J)|]. split; [exact J|reflexivity].
      - exists q1. split; [|split; [exact H|reflexivity]]. unfold qs. apply in_app_iff. right.
        destruct (List.length new =? List.length part) eqn:L1; [|now left]. exfalso.
        apply Nat.eqb_eq in L1. apply J.
        assert (IN : incl new part) by (intros y K; apply NP in K; tauto).
        apply (NoDup_length_incl (missing_nodup _ _) (l' := part)); [fold new; lia|exact IN|exact H]. }
    assert (I' : Inv C L E st2).
    { rewrite E2. apply (Inv_grow C L E st qs); auto.
      - intros q H. destruct (QIN q H) as [[-> _]| ->]; unfold qok, q1, q2, t in *; destruct o; cbn.
        + intros x K. apply PR. apply NP in K. tauto.
        + intros x K. apply PR. apply NP in K. tauto.
        + exact PR.
        + exact PR.
      - rewrite DI. apply missing_nodup.
      - rewrite DI. intros x H. apply NP in H. tauto.
      - intros x H. apply in_app_iff. now left.
      - intros q H x K. apply in_app_iff. destruct (QIN q H) as [[-> _]| ->]; cbn in K; [now right|].
        destruct (in_dec id_eq_dec x (s_seen st)); [now left|right]. apply NP. auto.
      - intros x H. apply in_app_iff in H. destruct H as [H|H]; [now left|right].
        intros s K. assert (Hp : In x part) by (apply NP in H; tauto).
        unfold t in *. destruct o.
        + exists q2. split; [apply (N2 x H)|]. cbn. split; [exact H|]. split; [reflexivity|]. right.
          split; [reflexivity|]. pose proof (PR x Hp) as RO.
          destruct (w_object _ _ _ _ W x RO) as [s' [V _]].
          rewrite (w_one _ _ _ _ W x s s' K (reach_object _ _ _ x s' RO V)). exact V.
        + exfalso. apply (sch_not_data x s K (PR x Hp)).
      - intros x H. apply in_app_iff in H. destruct H as [H|H]; [now left|right].
        destruct (QP x H) as [q [Q1 [Q2 Q3]]]. pose proof (PR x H) as RO. unfold t in *. destruct o.
        + split; [intros _; exists q; split; [exact Q1|cbn; auto]|]. intros K. exfalso. apply (sch_not_obj x RO K).
        + split; [intros K; exfalso; apply (sch_not_obj x K RO)|]. intros _. exists q. split; [exact Q1|].
          cbn. right. left. auto. }
    split; [exact I'|]. rewrite E2. cbn [s_queue s_seen s_new].
    split; [|split; [|split; [reflexivity|]]].
    - intros q H. apply (Permutation_in q (Permutation_sym P)). apply in_app_iff. now right.
    - intros x H. apply in_app_iff. now left.
    - apply CO; [rewrite <- E2; exact I'|]. cbn. intros x H. apply in_app_iff. tauto.
  Qed.

  Lemma visit_ok C L E st items t front :
    Inv C L E st -> is_type t ->
    (forall it, In it items -> fits it t) ->
    (forall it n, In it items -> enters it t n -> R n) ->
    (forall s, t = IId s -> R (Sch s)) ->
    exists st', visit st items (Some t) front = Ok st' /\ visit_post C L E st st' items t.
  Proof.
    intros I T F G RS. destruct t as [s|p v|dt].
    - apply visit_entities_ok; auto.
    - destruct T.
    - destruct dt as [| | |p]; unfold visit.
      + apply (visit_objects_ok C L E st items true front I G).
      + apply (visit_objects_ok C L E st items false front I G).
      + exists st. split; [reflexivity|]. split; [exact I|]. split; [apply incl_refl|]. split; [apply incl_refl|].
        split; [reflexivity|]. split; [intros it n H K; inversion K|intros; discriminate].
      + assert (FB : forallb (of_prim p) items = true).
        { apply forallb_forall. intros it H. destruct (F it H) as [v ->]. cbn. apply N.eqb_refl. }
        rewrite FB. exists st. split; [reflexivity|]. split; [exact I|]. split; [apply incl_refl|]. split; [apply incl_refl|].
        split; [reflexivity|]. split; [intros it n H K; inversion K|intros; discriminate].
  Qed.

  (** ** Copying data *)

  Lemma Inv_new C L E E' st n :
    Inv C L E st ->
    (forall x a c, nattr n x a = Some c -> get_attr src x a = Some c /\ (c <> None -> attr_scope src ds sch x a)) ->
    (forall x l, nlist n x = Some l -> get_list src x = Some l /\ list_scope src ds sch x /\ In x E') ->
    (forall x k c, ndict n x k = Some c -> get_dict src x k = Some c /\ dict_scope src ds sch x) ->
    (forall s a c, nsch n s a = Some c -> get_schema src s a = Some c /\ R (Sch s) /\ follow s) ->
    Inv C L E' (with_new st n).
  Proof. intros [] H1 H2 H3 H4. constructor; assumption. Qed.

  Lemma scope_data x a : attr_scope src ds sch x a -> is_data x.
  Proof. intros [[_ H]|[s [t [H _]]]]; [apply object_data; exact H|exists s; exact H]. Qed.

  Lemma written_ok C L E st r objs a lost :
    Inv C L E st ->
    written (s_new st) r objs a (fun x => get_attr src x a) lost ->
    (forall x it, In x objs -> value src x a = Some it -> attr_scope src ds sch x a) ->
    (forall y, lost y -> is_data y -> False) ->
    Inv C L E (with_new st r) /\ ext st (with_new st r) /\
    (forall x, In x objs -> nval r x a = value src x a).
  Proof.
    intros I Wr S LO.
    assert (A : forall x b c, nattr r x b = Some c ->
              get_attr src x b = Some c /\ (c <> None -> attr_scope src ds sch x b)).
    { intros x b c H. destruct (wr_from _ _ _ _ _ _ Wr _ _ _ H) as [K|[-> [K1 K2]]].
      - apply (i_attr _ _ _ _ I _ _ _ K).
      - split; [exact K2|]. intros N. destruct c as [it|]; [|congruence].
        apply (S x it K1). apply value_some. exact K2. }
    assert (V : forall x, In x objs -> nval r x a = value src x a).
    { intros x H. destruct (value src x a) as [v|] eqn:E1.
      - apply value_some in E1. apply nval_some. apply (wr_set _ _ _ _ _ _ Wr); assumption.
      - destruct (nval r x a) as [v|] eqn:E2; [|reflexivity].
        apply nval_some, A in E2. destruct E2 as [E2 _]. apply value_some in E2. congruence. }
    split; [|split; [|exact V]].
    - apply (Inv_new C L E); auto.
      + rewrite (wr_lists _ _ _ _ _ _ Wr). apply (i_list _ _ _ _ I).
      + rewrite (wr_dicts _ _ _ _ _ _ Wr). apply (i_dict _ _ _ _ I).
      + rewrite (wr_schemas _ _ _ _ _ _ Wr). apply (i_schm _ _ _ _ I).
    - constructor; cbn [s_queue s_seen with_new s_new]; auto using incl_refl.
      + intros x b v H. apply nval_some in H. destruct (wr_kept _ _ _ _ _ _ Wr _ _ _ H) as [K|[-> K]].
        * apply nval_some. exact K.
        * destruct (i_attr _ _ _ _ I _ _ _ H) as [H1 H2].
          destruct K as [K|K].
          { rewrite (V x K). apply value_some. exact H1. }
          { exfalso. apply (LO x K). apply (scope_data x a). apply H2. discriminate. }
      + rewrite (wr_lists _ _ _ _ _ _ Wr). auto.
      + rewrite (wr_dicts _ _ _ _ _ _ Wr). auto.
      + rewrite (wr_schemas _ _ _ _ _ _ Wr). auto.
  Qed.

  Lemma presents_in f (objs : list id) it :
    In it (presents (map f objs)) <-> exists x, In x objs /\ f x = Some (Some it).
  Proof.
    unfold presents. rewrite in_flat_map. split.
    - intros [c [H K]]. apply in_map_iff in H. destruct H as [x [<- H]]. exists x. split; [exact H|].
      destruct (f x) as [[v|]|]; [|destruct K|destruct K]. destruct K as [<-|[]]. reflexivity.
    - intros [x [H K]]. exists (f x). split; [apply in_map; exact H|]. rewrite K. now left.
  Qed.

  Lemma ext_visit C L E st st' items t : visit_post C L E st st' items t -> ext st st'.
  Proof.
    intros [_ [H1 [H2 [H3 _]]]]. constructor; auto; rewrite H3; auto.
  Qed.

  Lemma process_attribute_ok C L E st objs a t full :
    Inv C L E st ->
    (forall x, In x objs -> is_data x) -> full_ok objs full ->
    is_type t -> (forall s, t = IId s -> R (Sch s)) ->
    (forall x it, In x objs -> value src x a = Some it ->
       attr_scope src ds sch x a /\ fits it t /\ forall n, enters it t n -> R n) ->
    exists st' full', process_attribute src st objs a t full = Ok (st', full') /\
      full_ok objs full' /\ Inv C L E st' /\ ext st st' /\
      l_schemas (s_new st') = l_schemas (s_new st) /\
      (forall x, In x objs -> nval (s_new st') x a = value src x a /\
         forall it n, value src x a = Some it -> enters it t n -> cov C st' n) /\
      (forall s, t = IId s -> cov C st' (Sch s)).
  Proof.
    intros I HD HF T TS V. unfold process_attribute.
    destruct (get_maybe_full_ok objs a full HD HF) as [full' [-> HF']].
    set (r := match objs with [] => s_new st | _ => _ end).
    assert (WR : exists lost, written (s_new st) r objs a (fun x => get_attr src x a) lost /\
                   forall y, lost y -> is_data y -> False).
    { unfold r. destruct objs as [|x0 r0].
      - exists (fun _ => False). split; [|auto]. constructor; auto. intros y v [].
      - destruct full'.
        + destruct (HF' eq_refl) as [al [P1 P2]].
          assert (Ea : i_alloc x0 = al).
          { assert (I0 : In x0 (x0 :: r0)) by now left. rewrite P1 in I0. apply in_prefix in I0. tauto. }
          exists (fun y => i_alloc y = al /\ List.length (x0 :: r0) <= i_off y). split.
          * rewrite Ea. rewrite P1 at 1 2. apply set_full_written.
          * intros y [Y1 Y2] [s Y3]. pose proof (w_offset _ _ _ _ W _ _ Y3) as Y4. rewrite Y1 in Y4. lia.
        + exists (fun _ => False). split; [|auto]. apply set_skip_unset_written. }
    destruct WR as [lost [WR LO]].
    destruct (written_ok C L E st r objs a lost I WR (fun x it H K => proj1 (V x it H K)) LO) as [I1 [X1 V1]].
    destruct (visit_ok C L E (with_new st r) (presents (map (fun x => get_attr src x a) objs)) t false I1 T)
      as [st' [E1 P]].
    - intros it H. apply presents_in in H. destruct H as [x [H K]]. apply value_some in K.
      apply (V x it H K).
    - intros it n H. apply presents_in in H. destruct H as [x [H K]]. apply value_some in K.
      apply (V x it H K).
    - exact TS.
    - rewrite E1. cbn [bind]. exists st', full'. split; [reflexivity|]. split; [exact HF'|].
      pose proof (ext_visit _ _ _ _ _ _ _ P) as X2.
      destruct P as [P1 [P2 [P3 [P4 [P5 P6]]]]]. split; [exact P1|]. split; [apply (ext_trans _ _ _ X1 X2)|].
      rewrite P4. split; [apply (wr_schemas _ _ _ _ _ _ WR)|]. split; [|exact P6].
      intros x H. split; [apply (V1 x H)|]. intros it n K. apply P5. apply presents_in. exists x.
      split; [exact H|]. apply value_some. exact K.
  Qed.

  Lemma present_items_in l it : In it (present_items l) <-> In (Some it) l.
  Proof.
    unfold present_items. rewrite in_flat_map. split.
    - intros [[v|] [H K]]; [|destruct K]. destruct K as [<-|[]]. exact H.
    - intros H. exists (Some it). split; [exact H|now left].
  Qed.

  Lemma process_lists_ok C L E st objs t :
    Inv C L E st -> NoDup objs -> (forall x, In x objs -> ~ In x E) ->
    is_type t -> (forall s, t = IId s -> R (Sch s)) ->
    (forall x, In x objs -> exists s, R (Inst x s) /\ follow s /\ typed src s kItems t) ->
    exists st', process_lists src st objs (Some t) = Ok st' /\
      Inv C L (objs ++ E) st' /\ ext st st' /\
      l_schemas (s_new st') = l_schemas (s_new st) /\
      (forall x, In x objs -> nlist (s_new st') x = get_list src x /\
         forall l it n, get_list src x = Some l -> In (Some it) l -> enters it t n -> cov C st' n) /\
      (forall s, t = IId s -> cov C st' (Sch s)).
  Proof.
    intros I ND DE T TS HS. unfold process_lists.
    assert (FB : forallb (fun x => match a_kind (i_alloc x) with KList => true | _ => false end) objs = true).
    { apply forallb_forall. intros x H. destruct (HS x H) as [s [K1 [K2 K3]]].
      rewrite (w_list _ _ _ _ W x s t K1 K2 K3). reflexivity. }
    rewrite FB. cbn [negb].
    set (lists := flat_map _ objs). set (r := fold_left _ lists (s_new st)).
    assert (NL : forall x, In x objs -> nlist (s_new st) x = None).
    { intros x H. destruct (nlist (s_new st) x) as [l|] eqn:F; [|reflexivity].
      exfalso. apply (DE x H). apply (i_list _ _ _ _ I x l F). }
    destruct (extend_lists_get (get_list src) objs (s_new st) ND NL) as [G1 [G2 [G3 [G4 G5]]]].
    fold lists in G1, G2, G3, G4, G5. fold r in G1, G2, G3, G4, G5.
    assert (GA : forall x a, nattr r x a = nattr (s_new st) x a).
    { intros. unfold layer_attr. rewrite G2, G3. reflexivity. }
    assert (I1 : Inv C L (objs ++ E) (with_new st r)).
    { apply (Inv_new C L E); auto.
      - intros x a c. rewrite GA. apply (i_attr _ _ _ _ I).
      - intros x l. rewrite G1. destruct (in_dec id_eq_dec x objs) as [J|J].
        + intros H. split; [exact H|]. split; [|apply in_app_iff; now left].
          destruct (HS x J) as [s K]. exists s, t. exact K.
        + intros H. apply (i_list _ _ _ _ I) in H. destruct H as [H1 [H2 H3]].
          split; [exact H1|]. split; [exact H2|apply in_app_iff; now right].
      - rewrite G4. apply (i_dict _ _ _ _ I).
      - rewrite G5. apply (i_schm _ _ _ _ I). }
    assert (X1 : ext st (with_new st r)).
    { constructor; cbn [s_queue s_seen with_new s_new]; auto using incl_refl.
      - intros x a v. unfold nval. rewrite GA. auto.
      - intros x l H. rewrite G1. destruct (in_dec id_eq_dec x objs) as [J|J]; [|exact H].
        rewrite (NL x J) in H. discriminate.
      - rewrite G4. auto.
      - rewrite G5. auto. }
    assert (LI : forall x l, In (x, l) lists <-> In x objs /\ get_list src x = Some l).
    { intros x l. unfold lists. rewrite in_flat_map. split.
      - intros [y [H K]]. destruct (get_list src y) as [l'|] eqn:F; [|destruct K].
        destruct K as [K|[]]. assert (y = x) by congruence. assert (l' = l) by congruence. subst. auto.
      - intros [H K]. exists x. split; [exact H|]. rewrite K. now left. }
    assert (II : forall it, In it (flat_map (fun e => present_items (snd e)) lists) <->
                 exists x l, In x objs /\ get_list src x = Some l /\ In (Some it) l).
    { intros it. rewrite in_flat_map. split.
      - intros [[x l] [H K]]. apply LI in H. cbn [snd] in K. apply present_items_in in K. exists x, l. tauto.
      - intros [x [l [H [K1 K2]]]]. exists (x, l). split; [apply LI; auto|]. apply present_items_in. exact K2. }
    destruct (visit_ok C L (objs ++ E) (with_new st r) (flat_map (fun e => present_items (snd e)) lists) t false I1 T)
      as [st' [E1 P]].
    - intros it H. apply II in H. destruct H as [x [l [H [K1 K2]]]]. destruct (HS x H) as [s [S1 [S2 S3]]].
      apply (w_item _ _ _ _ W x s t l it S1 S2 S3 K1 K2).
    - intros it n H K. apply II in H. destruct H as [x [l [H [K1 K2]]]]. destruct (HS x H) as [s [S1 [S2 S3]]].
      apply (reach_item _ _ _ x s t l it n S1 S2 S3 K1 K2 K).
    - exact TS.
    - exists st'. split; [exact E1|]. pose proof (ext_visit _ _ _ _ _ _ _ P) as X2.
      destruct P as [P1 [P2 [P3 [P4 [P5 P6]]]]]. split; [exact P1|]. split; [apply (ext_trans _ _ _ X1 X2)|].
      rewrite P4. split; [exact G5|]. split; [|exact P6]. intros x H. split.
      + cbn [with_new s_new]. rewrite G1. destruct (in_dec id_eq_dec x objs); [reflexivity|contradiction].
      + intros l it n K1 K2. apply P5. apply II. exists x, l. auto.
  Qed.

  Lemma process_dicts_ok C L E st objs kt vt :
    Inv C L E st ->
    is_type kt -> (forall s, kt = IId s -> R (Sch s)) ->
    is_type vt -> (forall s, vt = IId s -> R (Sch s)) ->
    (forall x, In x objs -> exists s, R (Inst x s) /\ follow s /\ typed src s kKeys kt /\ typed src s kValues vt) ->
    exists st', process_dicts src st objs (Some kt) (Some vt) = Ok st' /\
      Inv C L E st' /\ ext st st' /\
      l_schemas (s_new st') = l_schemas (s_new st) /\
      (forall x k, In x objs -> ndict (s_new st') x k = get_dict src x k /\
         (forall n, get_dict src x k <> None -> enters k kt n -> cov C st' n) /\
         (forall it n, get_dict src x k = Some (Some it) -> enters it vt n -> cov C st' n)) /\
      (forall s, kt = IId s -> cov C st' (Sch s)) /\ (forall s, vt = IId s -> cov C st' (Sch s)).
  Proof.
    intros I T1 TS1 T2 TS2 HS. unfold process_dicts.
    assert (FB : forallb (fun x => match a_kind (i_alloc x) with KDict => true | _ => false end) objs = true).
    { apply forallb_forall. intros x H. destruct (HS x H) as [s [K1 [K2 [K3 _]]]].
      rewrite (w_dict _ _ _ _ W x s kt K1 K2 K3). reflexivity. }
    rewrite FB. cbn [negb].
    set (entries := flat_map _ objs).
    set (g := fun e : id * item => match get_dict src (fst e) (snd e) with Some c => c | None => None end).
    set (r := fold_left _ (combine entries (map g entries)) (s_new st)).
    destruct (set_dicts_get g entries (s_new st)) as [G1 [G2 [G3 [G4 G5]]]].
    fold r in G1, G2, G3, G4, G5.
    assert (EI : forall x k, In (x, k) entries <-> In x objs /\ get_dict src x k <> None).
    { intros x k. unfold entries. rewrite in_flat_map. split.
      - intros [y [H K]]. apply in_map_iff in K. destruct K as [k' [K1 K2]].
        assert (y = x) by congruence. assert (k' = k) by congruence. subst. rewrite <- dict_keys_in. auto.
      - intros [H K]. exists x. split; [exact H|]. apply in_map. apply dict_keys_in. exact K. }
    assert (GA : forall x a, nattr r x a = nattr (s_new st) x a).
    { intros. unfold layer_attr. rewrite G2, G3. reflexivity. }
    assert (GD : forall x k, In x objs -> get_dict src x k <> None -> ndict r x k = get_dict src x k).
    { intros x k H K. rewrite G1. destruct (in_dec dkey_eq_dec (x, k) entries) as [J|J].
      - unfold g. cbn [fst snd]. destruct (get_dict src x k); [reflexivity|congruence].
      - exfalso. apply J. apply EI. auto. }
    assert (I1 : Inv C L E (with_new st r)).
    { apply (Inv_new C L E); auto.
      - intros x a c. rewrite GA. apply (i_attr _ _ _ _ I).
      - rewrite G4. apply (i_list _ _ _ _ I).
      - intros x k c H. destruct (in_dec dkey_eq_dec (x, k) entries) as [J|J].
        + apply EI in J. destruct J as [J1 J2]. rewrite (GD x k J1 J2) in H. split; [exact H|].
          destruct (HS x J1) as [s [K1 [K2 [K3 _]]]]. exists s, kt. auto.
        + rewrite G1 in H. destruct (in_dec dkey_eq_dec (x, k) entries); [contradiction|].
          apply (i_dict _ _ _ _ I x k c H).
      - rewrite G5. apply (i_schm _ _ _ _ I). }
    assert (X1 : ext st (with_new st r)).
    { constructor; cbn [s_queue s_seen with_new s_new]; auto using incl_refl.
      - intros x a v. unfold nval. rewrite GA. auto.
      - rewrite G4. auto.
      - intros x k c H. destruct (in_dec dkey_eq_dec (x, k) entries) as [J|J].
        + apply EI in J. destruct J as [J1 J2]. rewrite (GD x k J1 J2). apply (i_dict _ _ _ _ I x k c H).
        + rewrite G1. destruct (in_dec dkey_eq_dec (x, k) entries); [contradiction|exact H].
      - rewrite G5. auto. }
    assert (KI : forall k, In k (map snd entries) <-> exists x, In x objs /\ get_dict src x k <> None).
    { intros k. rewrite in_map_iff. split.
      - intros [[x k'] [<- H]]. exists x. apply EI. exact H.
      - intros [x H]. exists (x, k). split; [reflexivity|apply EI; exact H]. }
    assert (VI : forall it, In it (present_items (map g entries)) <->
                 exists x k, In x objs /\ get_dict src x k = Some (Some it)).
    { intros it. rewrite present_items_in, in_map_iff. split.
      - intros [[x k] [H K]]. apply EI in K. unfold g in H. cbn [fst snd] in H. exists x, k. split; [tauto|].
        destruct (get_dict src x k); [congruence|discriminate].
      - intros [x [k [H K]]]. exists (x, k). split; [unfold g; cbn [fst snd]; rewrite K; reflexivity|].
        apply EI. split; [exact H|congruence]. }
    destruct (visit_ok C L E (with_new st r) (map snd entries) kt false I1 T1) as [st1 [E1 P]].
    { intros it H. apply KI in H. destruct H as [x [H K]]. destruct (HS x H) as [s [S1 [S2 [S3 S4]]]].
      apply (w_key _ _ _ _ W x s kt it S1 S2 S3 K). }
    { intros it n H K. apply KI in H. destruct H as [x [H K1]]. destruct (HS x H) as [s [S1 [S2 [S3 S4]]]].
      apply (reach_key _ _ _ x s kt it n S1 S2 S3 K1 K). }
    { exact TS1. }
    pose proof (ext_visit _ _ _ _ _ _ _ P) as X2. destruct P as [P1 [P2 [P3 [P4 [P5 P6]]]]].
    destruct (visit_ok C L E st1 (present_items (map g entries)) vt false P1 T2) as [st2 [E2 Q]].
    { intros it H. apply VI in H. destruct H as [x [k [H K]]]. destruct (HS x H) as [s [S1 [S2 [S3 S4]]]].
      apply (w_value _ _ _ _ W x s vt k it S1 S2 S4 K). }
    { intros it n H K. apply VI in H. destruct H as [x [k [H K1]]]. destruct (HS x H) as [s [S1 [S2 [S3 S4]]]].
      apply (reach_value _ _ _ x s vt k it n S1 S2 S4 K1 K). }
    { exact TS2. }
    pose proof (ext_visit _ _ _ _ _ _ _ Q) as X3. destruct Q as [Q1 [Q2 [Q3 [Q4 [Q5 Q6]]]]].
    exists st2. rewrite E1. cbn [bind]. split; [exact E2|]. split; [exact Q1|].
    split; [apply (ext_trans _ _ _ X1 (ext_trans _ _ _ X2 X3))|].
    rewrite Q4, P4. split; [exact G5|]. split; [|split; [|exact Q6]].
    - intros x k H. split; [|split].
      + cbn [with_new s_new]. destruct (get_dict src x k) as [c|] eqn:F.
        * rewrite (GD x k H) by congruence. exact F.
        * destruct (ndict r x k) as [c|] eqn:F2; [|reflexivity].
          apply (i_dict _ _ _ _ I1) in F2. destruct F2 as [F2 _]. congruence.
      + intros n K1 K2. apply (cov_ext _ _ _ _ Q2). apply (P5 k n); [|exact K2]. apply KI. exists x. auto.
      + intros it n K1. apply Q5. apply VI. exists x, k. auto.
    - intros s Es. apply (cov_ext _ _ _ _ Q2). apply (P6 s Es).
  Qed.

  (** ** Slices with a schema *)

  Definition sch_cov (C : node -> Prop) (st : state) : Prop :=
    forall s a t n, nsch (s_new st) s a = Some (Some t) -> leads a t n -> cov C st n.

  Record inst_done (C : node -> Prop) (st : state) (x s : id) : Prop := {
    d_attr a t : follow s -> regular a -> typed src s a t ->
      nval (s_new st) x a = value src x a /\
      forall it n, value src x a = Some it -> enters it t n -> cov C st n;
    d_list t : follow s -> typed src s kItems t ->
      nlist (s_new st) x = get_list src x /\
      forall l it n, get_list src x = Some l -> In (Some it) l -> enters it t n -> cov C st n;
    d_dict t : follow s -> typed src s kKeys t -> forall k, ndict (s_new st) x k = get_dict src x k;
    d_key t : follow s -> typed src s kKeys t ->
      forall k n, get_dict src x k <> None -> enters k t n -> cov C st n;
    d_value t : follow s -> typed src s kValues t ->
      forall k it n, get_dict src x k = Some (Some it) -> enters it t n -> cov C st n }.

  Definition sch_done (st : state) (s : id) : Prop :=
    follow s -> forall a, nsch (s_new st) s a = get_schema src s a.

  Lemma val_keep C L E st st' x a : Inv C L E st' -> ext st st' ->
    nval (s_new st) x a = value src x a -> nval (s_new st') x a = value src x a.
  Proof.
    intros I X H. destruct (value src x a) as [v|] eqn:E1; [apply (x_val _ _ X); exact H|].
    destruct (nval (s_new st') x a) as [v|] eqn:E2; [|reflexivity].
    apply nval_some, (i_attr _ _ _ _ I) in E2. destruct E2 as [E2 _]. apply value_some in E2. congruence.
  Qed.
  Lemma list_keep C L E st st' x : Inv C L E st' -> ext st st' ->
    nlist (s_new st) x = get_list src x -> nlist (s_new st') x = get_list src x.
  Proof.
    intros I X H. destruct (get_list src x) as [v|] eqn:E1; [apply (x_list _ _ X); exact H|].
    destruct (nlist (s_new st') x) as [v|] eqn:E2; [|reflexivity].
    apply (i_list _ _ _ _ I) in E2. destruct E2 as [E2 _]. congruence.
  Qed.
  Lemma dict_keep C L E st st' x k : Inv C L E st' -> ext st st' ->
    ndict (s_new st) x k = get_dict src x k -> ndict (s_new st') x k = get_dict src x k.
  Proof.
    intros I X H. destruct (get_dict src x k) as [v|] eqn:E1; [apply (x_dict _ _ X); exact H|].
    destruct (ndict (s_new st') x k) as [v|] eqn:E2; [|reflexivity].
    apply (i_dict _ _ _ _ I) in E2. destruct E2 as [E2 _]. congruence.
  Qed.
  Lemma schm_keep C L E st st' s a : Inv C L E st' -> ext st st' ->
    nsch (s_new st) s a = get_schema src s a -> nsch (s_new st') s a = get_schema src s a.
  Proof.
    intros I X H. destruct (get_schema src s a) as [v|] eqn:E1; [apply (x_schm _ _ X); exact H|].
    destruct (nsch (s_new st') s a) as [v|] eqn:E2; [|reflexivity].
    apply (i_schm _ _ _ _ I) in E2. destruct E2 as [E2 _]. congruence.
  Qed.

  Lemma inst_done_keep C L E st st' x s : Inv C L E st' -> ext st st' ->
    inst_done C st x s -> inst_done C st' x s.
  Proof.
    intros I X [A B D K V].
    assert (CV : forall n, cov C st n -> cov C st' n) by (intros n; apply cov_ext, (x_queue _ _ X)).
    constructor.
    - intros a t F G T. destruct (A a t F G T) as [A1 A2]. split; [apply (val_keep _ _ _ _ _ _ _ I X A1)|eauto].
    - intros t F T. destruct (B t F T) as [B1 B2]. split; [apply (list_keep _ _ _ _ _ _ I X B1)|eauto].
    - intros t F T k. apply (dict_keep _ _ _ _ _ _ _ I X (D t F T k)).
    - eauto.
    - eauto.
  Qed.
  Lemma sch_done_keep C L E st st' s : Inv C L E st' -> ext st st' -> sch_done st s -> sch_done st' s.
  Proof. intros I X H F a. apply (schm_keep _ _ _ _ _ _ _ I X (H F a)). Qed.

  Lemma copy_schema_ok C L E st s a c :
    Inv C L E st -> R (Sch s) -> follow s -> get_schema src s a = Some c ->
    exists st' u, copy_schema src st s a = Ok (st', c, u) /\ Inv C L E st' /\ ext st st' /\
      s_queue st' = s_queue st /\
      nsch (s_new st') s a = Some c /\
      (forall s' a', (s', a') <> (s, a) -> nsch (s_new st') s' a' = nsch (s_new st) s' a') /\
      (u = false -> st' = st).
  Proof.
    intros I RS F G. unfold copy_schema. rewrite G, get_schema_one.
    destruct (nsch (s_new st) s a) as [c'|] eqn:N.
    - destruct (i_schm _ _ _ _ I s a c' N) as [K _]. assert (c' = c) by congruence. subst.
      destruct (cell_eq_dec c c); [|congruence]. exists st, false.
      split; [reflexivity|]. split; [exact I|]. split; [apply ext_refl|]. auto.
    - eexists. exists true. split; [reflexivity|]. split; [|split; [|split; [reflexivity|split; [|split]]]].
      + apply (Inv_new C L E); auto.
        * apply (i_attr _ _ _ _ I).
        * apply (i_list _ _ _ _ I).
        * apply (i_dict _ _ _ _ I).
        * intros s' a' c' H. rewrite set_schema_get in H. destruct (key_eq_dec (s', a') (s, a)) as [K|K].
          { assert (s' = s) by congruence. assert (a' = a) by congruence. subst. split; [congruence|]. auto. }
          { apply (i_schm _ _ _ _ I s' a' c' H). }
      + constructor; cbn [s_queue s_seen with_new s_new]; auto using incl_refl.
        intros s' a' c' H. rewrite set_schema_get. destruct (key_eq_dec (s', a') (s, a)); congruence.
      + cbn [with_new s_new]. rewrite set_schema_get. destruct (key_eq_dec (s, a) (s, a)); congruence.
      + intros s' a' H. cbn [with_new s_new]. rewrite set_schema_get. destruct (key_eq_dec (s', a') (s, a)); congruence.
      + discriminate.
  Qed.

  Lemma fold_res_inv {A S} (P : list A -> S -> Prop) (f : S -> A -> result S) l s :
    P [] s ->
    (forall dn a r s1, l = dn ++ a :: r -> P dn s1 -> exists s2, f s1 a = Ok s2 /\ P (dn ++ [a]) s2) ->
    exists s', fold_res f l s = Ok s' /\ P l s'.
  Proof.
    intros H0 H.
    assert (G : forall r dn s1, l = dn ++ r -> P dn s1 -> exists s', fold_res f r s1 = Ok s' /\ P l s').
    { induction r as [|a r IH]; intros dn s1 El Hs.
      - rewrite app_nil_r in El. subst dn. exists s1. auto.
      - destruct (H dn a r s1 El Hs) as [s2 [E2 P2]]. cbn. rewrite E2. cbn [bind].
        apply (IH (dn ++ [a])); [|exact P2]. rewrite <- app_assoc. exact El. }
    apply (G l [] s eq_refl H0).
  Qed.

  (** The effect of copying a cell and then covering what it leads to. *)
  Lemma sch_cov_step C st st1 st2 s a c :
    sch_cov C st ->
    (forall s' a', (s', a') <> (s, a) -> nsch (s_new st1) s' a' = nsch (s_new st) s' a') ->
    nsch (s_new st1) s a = Some c ->
    l_schemas (s_new st2) = l_schemas (s_new st1) ->
    incl (s_queue st) (s_queue st2) ->
    (forall t n, c = Some t -> leads a t n -> cov C st2 n) ->
    sch_cov C st2.
  Proof.
    intros H O N L2 Q G s' a' t n K Ld. rewrite L2 in K.
    destruct (key_eq_dec (s', a') (s, a)) as [J|J].
    - assert (s' = s) by congruence. assert (a' = a) by congruence. subst. apply (G t n); [congruence|exact Ld].
    - rewrite (O s' a' J) in K. apply (cov_ext _ _ _ _ Q). apply (H s' a' t n K Ld).
  Qed.

  Lemma type_reach s a t : R (Sch s) -> follow s -> a <> kName -> a <> kMetadata -> typed src s a t ->
    is_type t /\ forall s', t = IId s' -> R (Sch s').
  Proof.
    intros RS F N M T. split; [apply (w_type _ _ _ _ W s a t RS F N M T)|].
    intros s' ->. apply (reach_type _ _ _ s a (IId s') (Sch s') RS F T). apply leads_type; assumption.
  Qed.

  Lemma leads_cases a t n : leads a t n ->
    (a = kMetadata /\ enters t (IDType TObject) n) \/
    (a <> kName /\ a <> kMetadata /\ exists s, t = IId s /\ n = Sch s).
  Proof. intros H. inversion H; subst; [now left|right]. eauto. Qed.

  Record attrs_post (C : node -> Prop) (L E : list id) (st : state) (objs : list id) (s : id)
      (dn : list string) (lp : loop) : Prop := {
    a_inv : Inv C L E (lp_state lp);
    a_cov : sch_cov C (lp_state lp);
    a_ext : ext st (lp_state lp);
    a_full : full_ok objs (lp_full lp);
    a_reg : lp_regular lp = true -> exists a t, regular a /\ typed src s a t;
    a_cell a : In a dn -> a <> kItems -> a <> kKeys -> a <> kValues ->
      nsch (s_new (lp_state lp)) s a = get_schema src s a;
    a_data a t x : In a dn -> regular a -> typed src s a t -> In x objs ->
      nval (s_new (lp_state lp)) x a = value src x a /\
      forall it n, value src x a = Some it -> enters it t n -> cov C (lp_state lp) n }.

  Lemma entity_loop_ok C L E st objs s :
    Inv C L E st -> sch_cov C st -> R (Sch s) -> follow s ->
    (forall x, In x objs -> R (Inst x s)) ->
    exists lp, fold_res (entity_attr src objs s) (schema_names src s) (mkLoop st false false) = Ok lp /\
      attrs_post C L E st objs s (schema_names src s) lp.
  Proof.
    intros I SC RS F RO.
    apply (fold_res_inv (attrs_post C L E st objs s)).
    { constructor; cbn [lp_state lp_full lp_regular]; auto.
      - apply ext_refl.
      - discriminate.
      - discriminate.
      - intros a [].
      - intros a t x []. }
    intros dn a rest lp EN P.
    assert (Na : get_schema src s a <> None).
    { apply schema_names_in. rewrite EN, in_app_iff. right. now left. }
    destruct (get_schema src s a) as [c|] eqn:Gc; [clear Na|congruence].
    unfold entity_attr.
    (* one more name, which is not of interest *)
    assert (SKIP : a = kItems \/ a = kKeys \/ a = kValues -> attrs_post C L E st objs s (dn ++ [a]) lp).
    { intros Ha. destruct P as [P1 P2 P3 P4 P5 P6 P7]. constructor; auto.
      - intros b H N1 N2 N3. apply in_app_iff in H. destruct H as [H|[<-|[]]]; [auto|]. tauto.
      - intros b t x H G. apply in_app_iff in H. destruct H as [H|[<-|[]]]; [auto|].
        destruct G as [G1 [G2 [G3 _]]]. tauto. }
    destruct (string_dec a kItems) as [|NI]; [exists lp; auto|].
    destruct (string_dec a kKeys) as [|NK]; [exists lp; auto|].
    destruct (string_dec a kValues) as [|NV]; [exists lp; auto|].
    clear SKIP. destruct P as [P1 P2 P3 P4 P5 P6 P7].
    destruct (copy_schema_ok C L E (lp_state lp) s a c P1 RS F Gc) as [st1 [u [E1 [I1 [X1 [Q1 [N1 [O1 U1]]]]]]]].
    rewrite E1. cbn [bind].
    (* the general form of the step *)
    assert (STEP : forall st2 full2 reg2, Inv C L E st2 -> ext st1 st2 ->
       l_schemas (s_new st2) = l_schemas (s_new st1) ->
       (st2 = st1 /\ u = false \/ (forall t n, c = Some t -> leads a t n -> cov C st2 n)) ->
       full_ok objs full2 ->
       (reg2 = true -> exists a t, regular a /\ typed src s a t) ->
       (forall t x, regular a -> typed src s a t -> In x objs ->
          nval (s_new st2) x a = value src x a /\
          forall it n, value src x a = Some it -> enters it t n -> cov C st2 n) ->
       attrs_post C L E st objs s (dn ++ [a]) (mkLoop st2 full2 reg2)).
    { intros st2 full2 reg2 I2 X2 L2 G2 F2 R2 D2.
      pose proof (ext_trans _ _ _ X1 X2) as X3.
      constructor; cbn [lp_state lp_full lp_regular]; auto.
      - destruct G2 as [[-> Eu]|G2].
        + rewrite (U1 Eu). exact P2.
        + apply (sch_cov_step C (lp_state lp) st1 st2 s a c P2 O1 N1 L2 (x_queue _ _ X3) G2).
      - apply (ext_trans _ _ _ P3 X3).
      - intros b H K1 K2 K3. apply in_app_iff in H. destruct H as [H|[<-|[]]].
        + apply (schm_keep _ _ _ _ _ _ _ I2 X3). apply (P6 b H K1 K2 K3).
        + apply (schm_keep _ _ _ _ _ _ _ I2 X2). congruence.
      - intros b t x H K1 K2 K3. apply in_app_iff in H. destruct H as [H|[<-|[]]].
        + destruct (P7 b t x H K1 K2 K3) as [D1 D3]. split; [apply (val_keep _ _ _ _ _ _ _ I2 X3 D1)|].
          intros it n V Et. apply (cov_ext _ _ _ _ (x_queue _ _ X3)). apply (D3 it n V Et).
        + apply (D2 t x K1 K2 K3). }
    destruct c as [t|].
    2:{ eexists. split; [reflexivity|]. apply STEP; auto.
        - apply ext_refl.
        - right. intros t n K. discriminate.
        - intros t x _ K. unfold typed in K. congruence. }
    destruct (string_dec a kName) as [->|NN].
    { eexists. split; [reflexivity|]. apply STEP; auto.
      - apply ext_refl.
      - right. intros t' n _ K. apply leads_cases in K. destruct K as [[K _]|[K _]]; [discriminate|congruence].
      - intros t' x [_ [_ [_ [K _]]]]. congruence. }
    destruct (string_dec a kMetadata) as [->|NM].
    { destruct u.
      - destruct (visit_ok C L E st1 [t] (IDType TObject) true I1) as [st2 [E2 V]].
        + exact Logic.I.
        + intros it _. exact Logic.I.
        + intros it n [<-|[]] K. apply (reach_type _ _ _ s kMetadata t n RS F Gc). apply leads_metadata. exact K.
        + intros; discriminate.
        + rewrite E2. cbn [bind]. eexists. split; [reflexivity|].
          pose proof (ext_visit _ _ _ _ _ _ _ V) as X2. destruct V as [V1 [V2 [V3 [V4 [V5 V6]]]]].
          apply STEP; auto.
          * rewrite V4. reflexivity.
          * right. intros t' n K1 K. apply leads_cases in K. destruct K as [[_ K]|[_ [K _]]]; [|congruence].
            assert (t' = t) by congruence. subst t'. apply (V5 t n); [now left|exact K].
          * intros t' x [_ [_ [_ [_ K]]]]. congruence.
      - eexists. split; [reflexivity|]. apply STEP; auto.
        + apply ext_refl.
        + intros t' x [_ [_ [_ [_ K]]]]. congruence. }
    assert (RG : regular a) by (unfold regular; auto).
    assert (REG : true = true -> exists a t, regular a /\ typed src s a t) by (intros _; exists a, t; auto).
    destruct (type_reach s a t RS F NN NM Gc) as [T1 T2].
    destruct (u || negb (is_nil objs)) eqn:UO.
    - destruct (process_attribute_ok C L E st1 objs a t (lp_full lp) I1) as [st2 [full2 [E2 [F2 [I2 [X2 [L2 [D2 S2]]]]]]]].
      + intros x H. exists s. apply RO. exact H.
      + exact P4.
      + exact T1.
      + exact T2.
      + intros x it H V. split; [|split].
        * right. exists s, t. split; [apply RO; exact H|]. auto.
        * apply (w_attr _ _ _ _ W x s a t it (RO x H) F RG Gc V).
        * intros n K. apply (reach_attr _ _ _ x s a t it n (RO x H) F RG Gc V K).
      + rewrite E2. cbn [bind]. eexists. split; [reflexivity|]. apply STEP; auto.
        * right. intros t' n K1 K. apply leads_cases in K. destruct K as [[K _]|[_ [_ [s' [K2 ->]]]]]; [congruence|].
          apply S2. congruence.
        * intros t' x _ K H. assert (t' = t) by (unfold typed in K; congruence). subst t'. apply (D2 x H).
    - apply orb_false_iff in UO. destruct UO as [Eu Eo].
      assert (objs = []) by (destruct objs; [reflexivity|discriminate]).
      eexists. split; [reflexivity|]. apply STEP; auto.
      + apply ext_refl.
      + intros t' x _ _ H1. subst objs. destruct H1.
  Qed.

  Lemma has_name_iff a names : has_name a names = true <-> In a names.
  Proof. unfold has_name. destruct (in_dec string_dec a names); intuition congruence. Qed.
  Lemma has_name_false a names : has_name a names = false <-> ~ In a names.
  Proof. unfold has_name. destruct (in_dec string_dec a names); intuition congruence. Qed.

  Definition slice_post (C : node -> Prop) (L E : list id) (st st' : state) (objs : list id) (s : id) : Prop :=
    Inv C L (objs ++ E) st' /\ sch_cov C st' /\ ext st st' /\ sch_done st' s /\
    (forall x, In x objs -> inst_done C st' x s).

  Lemma Inv_more C L E E' st : Inv C L E st -> incl E E' -> Inv C L E' st.
  Proof.
    intros [] H. constructor; auto. intros x l K. destruct (i_list0 x l K) as [K1 [K2 K3]]. auto.
  Qed.

  Lemma sch_done_names C L E st s : Inv C L E st ->
    (forall a c, get_schema src s a = Some c -> nsch (s_new st) s a = Some c) -> sch_done st s.
  Proof.
    intros I H _ a. destruct (get_schema src s a) as [c|] eqn:G; [auto|].
    destruct (nsch (s_new st) s a) as [c|] eqn:N; [|reflexivity].
    apply (i_schm _ _ _ _ I) in N. destruct N as [N _]. congruence.
  Qed.

  Lemma part_typed s a : R (Sch s) -> follow s -> a = kItems \/ a = kKeys \/ a = kValues ->
    get_schema src s a <> None -> exists t, typed src s a t.
  Proof.
    intros RS F Ha N. pose proof (w_parts _ _ _ _ W s a RS F Ha) as K.
    destruct (get_schema src s a) as [[t|]|] eqn:G; [|congruence|congruence]. exists t. exact G.
  Qed.

  Lemma process_entity_attrs_ok C L E st objs s :
    Inv C L E st -> sch_cov C st -> R (Sch s) -> follow s ->
    NoDup objs -> (forall x, In x objs -> ~ In x E) ->
    (forall x, In x objs -> R (Inst x s)) ->
    exists st', process_entity_attrs src st objs s = Ok st' /\ slice_post C L E st st' objs s.
  Proof.
    intros I SC RS F ND DE RO. unfold process_entity_attrs.
    destruct (entity_loop_ok C L E st objs s I SC RS F RO) as [lp [E1 P]].
    rewrite E1. cbn [bind]. destruct P as [P1 P2 P3 P4 P5 P6 P7].
    set (st1 := lp_state lp) in *. clear E1.
    assert (NM : forall a c, get_schema src s a = Some c -> In a (schema_names src s)).
    { intros a c G. apply schema_names_in. congruence. }
    assert (NPI : kItems <> kKeys /\ kItems <> kValues /\ kKeys <> kValues) by (repeat split; discriminate).
    assert (NNI : kItems <> kName /\ kItems <> kMetadata /\ kKeys <> kName /\ kKeys <> kMetadata /\
                  kValues <> kName /\ kValues <> kMetadata) by (repeat split; discriminate).
    (* the attributes are kept by everything that follows *)
    assert (ATTR : forall st2 x a t E', Inv C L E' st2 -> ext st1 st2 -> In x objs -> follow s -> regular a -> typed src s a t ->
              nval (s_new st2) x a = value src x a /\
              forall it n, value src x a = Some it -> enters it t n -> cov C st2 n).
    { intros st2 x a t E' I2 X2 Hx _ G T. destruct (P7 a t x (NM _ _ T) G T Hx) as [D1 D2].
      split; [apply (val_keep _ _ _ _ _ _ _ I2 X2 D1)|].
      intros it n V En. apply (cov_ext _ _ _ _ (x_queue _ _ X2)). apply (D2 it n V En). }
    assert (CELL : forall st2 a c E', Inv C L E' st2 -> ext st1 st2 -> a <> kItems -> a <> kKeys -> a <> kValues ->
              get_schema src s a = Some c -> nsch (s_new st2) s a = Some c).
    { intros st2 a c E' I2 X2 K1 K2 K3 G. rewrite <- G. apply (schm_keep _ _ _ _ _ _ _ I2 X2).
      apply (P6 a (NM _ _ G) K1 K2 K3). }
    destruct (has_name kItems (schema_names src s)) eqn:HI.
    { apply has_name_iff in HI. apply schema_names_in in HI.
      destruct (part_typed s kItems RS F (or_introl eq_refl) HI) as [t T].
      destruct (w_list_schema _ _ _ _ W s t RS F T) as [K1 [K2 K3]].
      assert (B1 : lp_regular lp = false).
      { destruct (lp_regular lp) eqn:B; [|reflexivity]. destruct (P5 eq_refl) as [a [t' [A1 A2]]].
        exfalso. apply (K3 a t' A1 A2). }
      assert (B2 : has_name kKeys (schema_names src s) = false).
      { apply has_name_false. rewrite schema_names_in. auto. }
      assert (B3 : has_name kValues (schema_names src s) = false).
      { apply has_name_false. rewrite schema_names_in. auto. }
      rewrite B1, B2, B3. cbn [orb].
      destruct (copy_schema_ok C L E st1 s kItems (Some t) P1 RS F T) as [st2 [u [E2 [I2 [X2 [Q2 [N2 [O2 U2]]]]]]]].
      rewrite E2. cbn [bind].
      destruct (type_reach s kItems t RS F) as [T1 T2]; [tauto|tauto|exact T|].
      assert (FIN : forall st3, Inv C L (objs ++ E) st3 -> ext st2 st3 -> sch_cov C st3 ->
         (forall x, In x objs -> nlist (s_new st3) x = get_list src x /\
            forall l it n, get_list src x = Some l -> In (Some it) l -> enters it t n -> cov C st3 n) ->
         slice_post C L E st st3 objs s).
      { intros st3 I3 X3 S3 D3. pose proof (ext_trans _ _ _ X2 X3) as X13.
        split; [exact I3|]. split; [exact S3|]. split; [apply (ext_trans _ _ _ P3 X13)|]. split.
        - apply (sch_done_names C L (objs ++ E)); [exact I3|]. intros a c G.
          destruct (string_dec a kItems) as [->|N1].
          + rewrite <- G. apply (schm_keep _ _ _ _ _ _ _ I3 X3). rewrite N2. symmetry. exact T.
          + apply (CELL st3 a c (objs ++ E)); auto; congruence.
        - intros x Hx. constructor.
          + intros a t' _ G T'. exfalso. apply (K3 a t' G T').
          + intros t' _ T'. assert (t' = t) by (unfold typed in *; congruence). subst t'. apply (D3 x Hx).
          + intros t' _ T'. unfold typed in T'. congruence.
          + intros t' _ T'. unfold typed in T'. congruence.
          + intros t' _ T'. unfold typed in T'. congruence. }
      destruct (u || negb (is_nil objs)) eqn:UO.
      - destruct (process_lists_ok C L E st2 objs t I2 ND DE T1 T2) as [st3 [E3 [I3 [X3 [L3 [D3 S3]]]]]].
        { intros x Hx. exists s. split; [apply RO; exact Hx|]. auto. }
        exists st3. split; [exact E3|]. apply FIN; auto.
        apply (sch_cov_step C st1 st2 st3 s kItems (Some t) P2 O2 N2 L3).
        + rewrite <- Q2. apply (x_queue _ _ X3).
        + intros t' n K Ld. apply leads_cases in Ld. destruct Ld as [[Ld _]|[_ [_ [s' [-> ->]]]]]; [discriminate|].
          apply S3. congruence.
      - apply orb_false_iff in UO. destruct UO as [Eu Eo].
        assert (objs = []) by (destruct objs; [reflexivity|discriminate]).
        exists st2. split; [reflexivity|]. apply FIN.
        + subst objs. exact I2.
        + apply ext_refl.
        + rewrite (U2 Eu). exact P2.
        + intros x Hx. subst objs. destruct Hx. }
    apply has_name_false in HI. rewrite schema_names_in in HI.
    assert (GI : get_schema src s kItems = None).
    { destruct (get_schema src s kItems); [|reflexivity]. exfalso. apply HI. discriminate. }
    destruct (has_name kKeys (schema_names src s) || has_name kValues (schema_names src s)) eqn:HK.
    { assert (OR : get_schema src s kKeys <> None \/ get_schema src s kValues <> None).
      { apply orb_true_iff in HK. rewrite !has_name_iff, !schema_names_in in HK. exact HK. }
      destruct (w_dict_schema _ _ _ _ W s RS F OR) as [G1 [G2 G3]].
      destruct (part_typed s kKeys RS F (or_intror (or_introl eq_refl)) G1) as [kt KT].
      destruct (part_typed s kValues RS F (or_intror (or_intror eq_refl)) G2) as [vt VT].
      assert (B1 : lp_regular lp = false).
      { destruct (lp_regular lp) eqn:B; [|reflexivity]. destruct (P5 eq_refl) as [a [t' [A1 A2]]].
        exfalso. apply (G3 a t' A1 A2). }
      assert (B2 : has_name kKeys (schema_names src s) = true) by (apply has_name_iff, schema_names_in, G1).
      assert (B3 : has_name kValues (schema_names src s) = true) by (apply has_name_iff, schema_names_in, G2).
      rewrite B1, B2, B3. cbn [orb negb].
      destruct (copy_schema_ok C L E st1 s kKeys (Some kt) P1 RS F KT) as [st2 [u1 [E2 [I2 [X2 [Q2 [N2 [O2 U2]]]]]]]].
      rewrite E2. cbn [bind].
      destruct (copy_schema_ok C L E st2 s kValues (Some vt) I2 RS F VT) as [st3 [u2 [E3 [I3 [X3 [Q3 [N3 [O3 U3]]]]]]]].
      rewrite E3. cbn [bind].
      destruct (type_reach s kKeys kt RS F) as [KT1 KT2]; [tauto|tauto|exact KT|].
      destruct (type_reach s kValues vt RS F) as [VT1 VT2]; [tauto|tauto|exact VT|].
      assert (FIN : forall st4, Inv C L (objs ++ E) st4 -> ext st3 st4 -> sch_cov C st4 ->
         (forall x k, In x objs -> ndict (s_new st4) x k = get_dict src x k /\
            (forall n, get_dict src x k <> None -> enters k kt n -> cov C st4 n) /\
            (forall it n, get_dict src x k = Some (Some it) -> enters it vt n -> cov C st4 n)) ->
         slice_post C L E st st4 objs s).
      { intros st4 I4 X4 S4 D4. pose proof (ext_trans _ _ _ X2 (ext_trans _ _ _ X3 X4)) as X14.
        split; [exact I4|]. split; [exact S4|]. split; [apply (ext_trans _ _ _ P3 X14)|]. split.
        - apply (sch_done_names C L (objs ++ E)); [exact I4|]. intros a c G.
          destruct (string_dec a kKeys) as [->|NK].
          { apply (x_schm _ _ X4), (x_schm _ _ X3). rewrite N2. unfold typed in KT. congruence. }
          destruct (string_dec a kValues) as [->|NV].
          { apply (x_schm _ _ X4). rewrite N3. unfold typed in VT. congruence. }
          apply (CELL st4 a c (objs ++ E)); auto; congruence.
        - intros x Hx. constructor.
          + intros a t' _ G T'. exfalso. apply (G3 a t' G T').
          + intros t' _ T'. unfold typed in T'. congruence.
          + intros t' _ _ k. apply (D4 x k Hx).
          + intros t' _ T' k. assert (t' = kt) by (unfold typed in *; congruence). subst t'. apply (D4 x k Hx).
          + intros t' _ T' k. assert (t' = vt) by (unfold typed in *; congruence). subst t'. apply (D4 x k Hx). }
      destruct (u1 || u2 || negb (is_nil objs)) eqn:UO.
      - destruct (process_dicts_ok C L E st3 objs kt vt I3 KT1 KT2 VT1 VT2) as [st4 [E4 [I4 [X4 [L4 [D4 [S4 S5]]]]]]].
        { intros x Hx. exists s. split; [apply RO; exact Hx|]. auto. }
        exists st4. split; [exact E4|]. apply FIN; auto.
        + apply (Inv_more C L E); [exact I4|]. intros y Hy. apply in_app_iff. now right.
        + intros s' a' t' n K Ld. rewrite L4 in K.
          assert (Q4 : incl (s_queue st1) (s_queue st4)).
          { rewrite <- Q2, <- Q3. apply (x_queue _ _ X4). }
          destruct (key_eq_dec (s', a') (s, kValues)) as [J|J].
          { assert (s' = s) by congruence. assert (a' = kValues) by congruence. subst s' a'.
            apply leads_cases in Ld. destruct Ld as [[Ld _]|[_ [_ [s'' [-> ->]]]]]; [discriminate|].
            apply S5. congruence. }
          rewrite (O3 _ _ J) in K.
          destruct (key_eq_dec (s', a') (s, kKeys)) as [J2|J2].
          { assert (s' = s) by congruence. assert (a' = kKeys) by congruence. subst s' a'.
            apply leads_cases in Ld. destruct Ld as [[Ld _]|[_ [_ [s'' [-> ->]]]]]; [discriminate|].
            apply S4. congruence. }
          rewrite (O2 _ _ J2) in K. apply (cov_ext _ _ _ _ Q4). apply (P2 s' a' t' n K Ld).
      - apply orb_false_iff in UO. destruct UO as [Eu Eo]. apply orb_false_iff in Eu. destruct Eu as [Eu1 Eu2].
        assert (objs = []) by (destruct objs; [reflexivity|discriminate]).
        exists st3. split; [reflexivity|]. apply FIN.
        + subst objs. exact I3.
        + apply ext_refl.
        + rewrite (U3 Eu2), (U2 Eu1). exact P2.
        + intros x k Hx. subst objs. destruct Hx. }
    apply orb_false_iff in HK. rewrite !has_name_false, !schema_names_in in HK. destruct HK as [HK HV].
    assert (GK : get_schema src s kKeys = None).
    { destruct (get_schema src s kKeys); [|reflexivity]. exfalso. apply HK. discriminate. }
    assert (GV : get_schema src s kValues = None).
    { destruct (get_schema src s kValues); [|reflexivity]. exfalso. apply HV. discriminate. }
    exists st1. split; [reflexivity|].
    assert (IM : Inv C L (objs ++ E) st1) by (apply (Inv_more C L E); [exact P1|intros y Hy; apply in_app_iff; now right]).
    split; [exact IM|]. split; [exact P2|]. split; [exact P3|]. split.
    - apply (sch_done_names C L E); [exact P1|]. intros a c G.
      apply (CELL st1 a c E); auto; try congruence. apply ext_refl.
    - intros x Hx. constructor.
      + intros a t _ G T. apply (ATTR st1 x a t E P1 (ext_refl _) Hx F G T).
      + intros t' _ T'. unfold typed in T'. congruence.
      + intros t' _ T'. unfold typed in T'. congruence.
      + intros t' _ T'. unfold typed in T'. congruence.
      + intros t' _ T'. unfold typed in T'. congruence.
  Qed.

  Lemma process_entities_ok C L E st objs s :
    Inv C L E st -> sch_cov C st -> R (Sch s) ->
    NoDup objs -> (forall x, In x objs -> ~ In x E) ->
    (forall x, In x objs -> R (Inst x s)) ->
    exists st', process_entities src st objs s = Ok st' /\ slice_post C L E st st' objs s.
  Proof.
    intros I SC RS ND DE RO. unfold process_entities.
    destruct (w_schema _ _ _ _ W s RS) as [f K]. rewrite K. destruct f.
    - exists st. split; [reflexivity|].
      assert (NF : ~ follow s) by (unfold follow; congruence).
      split; [apply (Inv_more C L E); [exact I|intros y Hy; apply in_app_iff; now right]|].
      split; [exact SC|]. split; [apply ext_refl|]. split; [intros G; contradiction|].
      intros x Hx. constructor; intros; contradiction.
    - apply process_entity_attrs_ok; auto.
  Qed.

  Lemma process_schemas_ok C L E st schemas :
    Inv C L E st -> sch_cov C st -> (forall s, In s schemas -> R (Sch s)) ->
    exists st', process_schemas src st schemas = Ok st' /\
      Inv C L E st' /\ sch_cov C st' /\ ext st st' /\ forall s, In s schemas -> sch_done st' s.
  Proof.
    intros I SC RS. unfold process_schemas.
    apply (fold_res_inv (fun dn st' => Inv C L E st' /\ sch_cov C st' /\ ext st st' /\ forall s, In s dn -> sch_done st' s)).
    { split; [exact I|]. split; [exact SC|]. split; [apply ext_refl|]. intros s []. }
    intros dn s r st1 El [I1 [S1 [X1 D1]]].
    destruct (process_entities_ok C L E st1 [] s I1 S1) as [st2 [E2 [I2 [S2 [X2 [D2 _]]]]]].
    - apply RS. rewrite El, in_app_iff. right. now left.
    - constructor.
    - intros x [].
    - intros x [].
    - exists st2. split; [exact E2|]. split; [exact I2|]. split; [exact S2|]. split; [apply (ext_trans _ _ _ X1 X2)|].
      intros s' H. apply in_app_iff in H. destruct H as [H|[<-|[]]]; [|exact D2].
      apply (sch_done_keep C L E st1 st2 s' I2 X2 (D1 s' H)).
  Qed.

  (** ** Slices of objects *)

  (** The schema of an object. *)
  Definition sof (x : id) : id := match value src x kSchemaAttr with Some (IId s) => s | _ => x end.

  Lemma sof_ok x : R (Obj x) -> value src x kSchemaAttr = Some (IId (sof x)) /\ follow (sof x) /\
    R (Inst x (sof x)) /\ R (Sch (sof x)).
  Proof.
    intros H. destruct (w_object _ _ _ _ W x H) as [s [V F]]. unfold sof. rewrite V.
    pose proof (reach_object _ _ _ x s H V) as RI. split; [reflexivity|]. split; [exact F|].
    split; [exact RI|apply (reach_schema _ _ _ x s RI)].
  Qed.

  Definition join (c : option cell) : option item := match c with Some t => t | None => None end.

  Lemma join_some c t : join c = Some t <-> c = Some (Some t).
  Proof. destruct c as [[v|]|]; cbn; split; intros H; inversion H; reflexivity. Qed.

  Lemma copy_schemas_ok C L E st ss a :
    Inv C L E st -> (forall s, In s ss -> R (Sch s) /\ follow s) ->
    exists st' u, copy_schemas src st (map Some ss) a = Ok (st', map (fun s => join (get_schema src s a)) ss, u) /\
      Inv C L E st' /\ ext st st' /\ s_queue st' = s_queue st /\
      (forall s, In s ss -> nsch (s_new st') s a = get_schema src s a) /\
      (forall s' a', ~ (In s' ss /\ a' = a) -> nsch (s_new st') s' a' = nsch (s_new st) s' a').
  Proof.
    intros I RS. unfold copy_schemas.
    rewrite map_map. set (f := fun s => get_schema src s a).
    change (map (fun x : id => get_schema src x a) ss) with (map f ss).
    assert (CH : exists ch, fold_res (fun (changed : bool) (e : option id * option cell) =>
          match e with
          | (Some s, Some c) =>
              match get_schema [s_new st] s a with
              | None => Ok true
              | Some c' => if cell_eq_dec c c' then Ok changed else Err SchemaConflict
              end
          | _ => Ok changed
          end) (combine (map Some ss) (map f ss)) false = Ok ch /\
        (ch = false -> forall s c, In s ss -> f s = Some c -> nsch (s_new st) s a = Some c)).
    { assert (G : forall l b, (forall s, In s l -> R (Sch s) /\ follow s) ->
        exists ch, fold_res (fun (changed : bool) (e : option id * option cell) =>
          match e with
          | (Some s, Some c) =>
              match get_schema [s_new st] s a with
              | None => Ok true
              | Some c' => if cell_eq_dec c c' then Ok changed else Err SchemaConflict
              end
          | _ => Ok changed
          end) (combine (map Some l) (map f l)) b = Ok ch /\
        (ch = false -> b = false /\ forall s c, In s l -> f s = Some c -> nsch (s_new st) s a = Some c)).
      { induction l as [|s l IH]; intros b Rl.
        - exists b. cbn. split; [reflexivity|]. intros ->. split; [reflexivity|]. intros s c [].
        - cbn [map combine fold_res]. destruct (f s) as [c|] eqn:Fs.
          + rewrite get_schema_one. destruct (nsch (s_new st) s a) as [c'|] eqn:N.
            * destruct (i_schm _ _ _ _ I s a c' N) as [K _]. unfold f in Fs. assert (c' = c) by congruence. subst c'.
              destruct (cell_eq_dec c c) as [_|]; [|congruence]. cbn [bind].
              destruct (IH b) as [ch [E1 E2]]; [intros; apply Rl; now right|].
              exists ch. split; [exact E1|]. intros Hc. destruct (E2 Hc) as [E3 E4]. split; [exact E3|].
              intros s' c' [<-|H] K'; [unfold f in K'; congruence|apply (E4 s' c' H K')].
            * cbn [bind]. destruct (IH true) as [ch [E1 E2]]; [intros; apply Rl; now right|].
              exists ch. split; [exact E1|]. intros Hc. destruct (E2 Hc). discriminate.
          + cbn [bind]. destruct (IH b) as [ch [E1 E2]]; [intros; apply Rl; now right|].
            exists ch. split; [exact E1|]. intros Hc. destruct (E2 Hc) as [E3 E4]. split; [exact E3|].
            intros s' c' [<-|H] K'; [congruence|apply (E4 s' c' H K')]. }
      destruct (G ss false RS) as [ch [E1 E2]]. exists ch. split; [exact E1|]. intros H. apply (E2 H). }
    destruct CH as [ch [E1 E2]]. rewrite E1. cbn [bind]. rewrite map_map.
    change (map (fun x : id => match f x with Some t => t | None => None end) ss) with (map (fun s => join (get_schema src s a)) ss).
    destruct ch.
    - destruct (set_schemas_get f a ss (s_new st)) as [G1 [G2 [G3 [G4 G5]]]].
      set (r := fold_left _ (combine (map Some ss) (map f ss)) (s_new st)) in *.
      eexists. exists true. split; [reflexivity|].
      assert (GA : forall x b, nattr r x b = nattr (s_new st) x b).
      { intros. unfold layer_attr. rewrite G2, G3. reflexivity. }
      assert (GC : forall s, In s ss -> nsch r s a = get_schema src s a).
      { intros s H. rewrite G1. destruct (string_dec a a); [|congruence].
        destruct (in_dec id_eq_dec s ss); [|contradiction]. unfold f. destruct (get_schema src s a) as [c|] eqn:Gs; [reflexivity|].
        destruct (nsch (s_new st) s a) as [c|] eqn:N; [|reflexivity].
        apply (i_schm _ _ _ _ I) in N. destruct N as [N _]. congruence. }
      assert (GO : forall s' a', ~ (In s' ss /\ a' = a) -> nsch r s' a' = nsch (s_new st) s' a').
      { intros s' a' H. rewrite G1. destruct (string_dec a' a) as [->|]; [|reflexivity].
        destruct (in_dec id_eq_dec s' ss); [exfalso; apply H; auto|reflexivity]. }
      assert (DEC : forall s' a', (In s' ss /\ a' = a) \/ ~ (In s' ss /\ a' = a)).
      { intros s' a'. destruct (in_dec id_eq_dec s' ss); destruct (string_dec a' a); tauto. }
      split; [|split; [|split; [reflexivity|split; [exact GC|exact GO]]]].
      + apply (Inv_new C L E); auto.
        * intros x b c. rewrite GA. apply (i_attr _ _ _ _ I).
        * rewrite G4. apply (i_list _ _ _ _ I).
        * rewrite G5. apply (i_dict _ _ _ _ I).
        * intros s' a' c H. destruct (DEC s' a') as [[D1 ->]|D].
          { rewrite (GC s' D1) in H. destruct (RS s' D1). auto. }
          { rewrite (GO s' a' D) in H. apply (i_schm _ _ _ _ I s' a' c H). }
      + constructor; cbn [s_queue s_seen with_new s_new]; auto using incl_refl.
        * intros x b v. unfold nval. rewrite GA. auto.
        * rewrite G4. auto.
        * rewrite G5. auto.
        * intros s' a' c H. destruct (DEC s' a') as [[D1 ->]|D].
          { rewrite (GC s' D1). apply (i_schm _ _ _ _ I s' a c H). }
          { rewrite (GO s' a' D). exact H. }
    - exists st, false. split; [reflexivity|]. split; [exact I|]. split; [apply ext_refl|]. split; [reflexivity|].
      split; [|reflexivity]. intros s H. destruct (get_schema src s a) as [c|] eqn:Gs.
      + apply (E2 eq_refl s c H Gs).
      + destruct (nsch (s_new st) s a) as [c|] eqn:N; [|reflexivity].
        apply (i_schm _ _ _ _ I) in N. destruct N as [N _]. congruence.
  Qed.

  Lemma sch_cov_steps C st st1 st2 ss a :
    sch_cov C st ->
    (forall s' a', ~ (In s' ss /\ a' = a) -> nsch (s_new st1) s' a' = nsch (s_new st) s' a') ->
    (forall s, In s ss -> nsch (s_new st1) s a = get_schema src s a) ->
    l_schemas (s_new st2) = l_schemas (s_new st1) ->
    incl (s_queue st) (s_queue st2) ->
    (forall s t n, In s ss -> typed src s a t -> leads a t n -> cov C st2 n) ->
    sch_cov C st2.
  Proof.
    intros H O N L2 Q G s' a' t n K Ld. rewrite L2 in K.
    destruct (in_dec id_eq_dec s' ss) as [J1|J1].
    - destruct (string_dec a' a) as [->|J2].
      + rewrite (N s' J1) in K. apply (G s' t n J1 K Ld).
      + rewrite O in K by tauto. apply (cov_ext _ _ _ _ Q), (H s' a' t n K Ld).
    - rewrite O in K by tauto. apply (cov_ext _ _ _ _ Q), (H s' a' t n K Ld).
  Qed.

  Lemma groups_in {K} dec (k : K) keys : In k (groups dec keys) <-> In (Some k) keys.
  Proof.
    unfold groups. rewrite nodup_In, in_flat_map. split.
    - intros [[k'|] [H J]]; [|destruct J]. destruct J as [<-|[]]. exact H.
    - intros H. exists (Some k). split; [exact H|now left].
  Qed.

  Section Group.
    Variables (C : node -> Prop) (L E : list id) (objs : list id).
    Hypothesis GO : forall x, In x objs -> R (Obj x).
    Hypothesis GN : objs <> [].
    Hypothesis GG : forall x x', In x objs -> In x' objs ->
      sof x = sof x' \/ (i_alloc (sof x) = i_alloc (sof x') /\ small (i_alloc (sof x)) = false).

    Lemma group_uniform x x' a t : In x objs -> In x' objs -> a <> kName -> a <> kMetadata ->
      typed src (sof x) a t -> typed src (sof x') a t \/ (regular a /\ forall t', ~ typed src (sof x') a t').
    Proof.
      intros H H' N M T. destruct (GG x x' H H') as [Es|[Es Sm]]; [left; rewrite <- Es; exact T|].
      destruct (sof_ok x (GO x H)) as [V _]. destruct (sof_ok x' (GO x' H')) as [V' _].
      apply (w_uniform _ _ _ _ W x (sof x) x' (sof x') a t (GO x H) V (GO x' H') V' Es Sm N M T).
    Qed.

    Lemma group_types a : a <> kName -> a <> kMetadata ->
      let types := map (fun s => join (get_schema src s a)) (map sof objs) in
      (groups item_eq_dec types = [] /\ forall x t, In x objs -> ~ typed src (sof x) a t) \/
      (exists t, groups item_eq_dec types = [t] /\ (exists x, In x objs /\ typed src (sof x) a t) /\
         forall x t', In x objs -> typed src (sof x) a t' -> t' = t).
    Proof.
      intros N M types.
      assert (TI : forall t, In t (groups item_eq_dec types) <-> exists x, In x objs /\ typed src (sof x) a t).
      { intros t. rewrite groups_in. unfold types. rewrite map_map, in_map_iff. split.
        - intros [x [J H]]. apply join_some in J. exists x. auto.
        - intros [x [H J]]. exists x. split; [apply join_some; exact J|exact H]. }
      assert (ND : NoDup (groups item_eq_dec types)) by apply NoDup_nodup.
      destruct (groups item_eq_dec types) as [|t1 [|t2 r]].
      - left. split; [reflexivity|]. intros x t H T. apply (proj2 (TI t)). exists x. auto.
      - right. exists t1. split; [reflexivity|]. split; [apply TI; now left|].
        intros x t' H T. assert (In t' [t1]) by (apply TI; exists x; auto). destruct H0 as [<-|[]]. reflexivity.
      - exfalso. destruct (proj1 (TI t1) (or_introl eq_refl)) as [x1 [H1 T1]].
        destruct (proj1 (TI t2) (or_intror (or_introl eq_refl))) as [x2 [H2 T2]].
        destruct (group_uniform x1 x2 a t1 H1 H2 N M T1) as [K|[_ K]]; [|apply (K t2 T2)].
        unfold typed in *. assert (t1 = t2) by congruence. subst t2. inversion ND; subst. apply H3. now left.
    Qed.

    Record group_post (st0 : state) (dn : list string) (acc : state * bool) : Prop := {
      g_inv : Inv C L E (fst acc);
      g_cov : sch_cov C (fst acc);
      g_ext : ext st0 (fst acc);
      g_full : full_ok objs (snd acc);
      g_cell a x : In a dn -> a <> kItems -> a <> kKeys -> a <> kValues -> In x objs ->
        nsch (s_new (fst acc)) (sof x) a = get_schema src (sof x) a;
      g_data a t x : In a dn -> regular a -> typed src (sof x) a t -> In x objs ->
        nval (s_new (fst acc)) x a = value src x a /\
        forall it n, value src x a = Some it -> enters it t n -> cov C (fst acc) n }.

    Lemma not_nil : is_nil objs = false.
    Proof. destruct objs; [congruence|reflexivity]. Qed.

    Lemma ss_ok s : In s (map sof objs) -> R (Sch s) /\ follow s.
    Proof. intros H. apply in_map_iff in H. destruct H as [x [<- H]]. destruct (sof_ok x (GO x H)). tauto. Qed.

    Lemma objects_attr_ok st0 dn acc a :
      group_post st0 dn acc ->
      exists acc', objects_attr src objs (map Some (map sof objs)) acc a = Ok acc' /\ group_post st0 (dn ++ [a]) acc'.
    Proof.
      intros P. unfold objects_attr.
      assert (SKIP : a = kItems \/ a = kKeys \/ a = kValues -> group_post st0 (dn ++ [a]) acc).
      { intros Ha. destruct P as [P1 P2 P3 P4 P5 P6]. constructor; auto.
        - intros b x H N1 N2 N3. apply in_app_iff in H. destruct H as [H|[<-|[]]]; [auto|]. tauto.
        - intros b t x H G. apply in_app_iff in H. destruct H as [H|[<-|[]]]; [auto|].
          destruct G as [G1 [G2 [G3 _]]]. tauto. }
      destruct (string_dec a kItems) as [|NI]; [exists acc; auto|].
      destruct (string_dec a kKeys) as [|NK]; [exists acc; auto|].
      destruct (string_dec a kValues) as [|NV]; [exists acc; auto|].
      clear SKIP. destruct acc as [st full]. destruct P as [P1 P2 P3 P4 P5 P6]. cbn [fst snd] in *.
      destruct (copy_schemas_ok C L E st (map sof objs) a P1 ss_ok) as [st1 [u [E1 [I1 [X1 [Q1 [N1 O1]]]]]]].
      rewrite E1. cbn [bind].
      assert (STEP : forall st2 full2, Inv C L E st2 -> ext st1 st2 ->
         l_schemas (s_new st2) = l_schemas (s_new st1) ->
         (forall s t n, In s (map sof objs) -> typed src s a t -> leads a t n -> cov C st2 n) ->
         full_ok objs full2 ->
         (forall t x, regular a -> typed src (sof x) a t -> In x objs ->
            nval (s_new st2) x a = value src x a /\
            forall it n, value src x a = Some it -> enters it t n -> cov C st2 n) ->
         group_post st0 (dn ++ [a]) (st2, full2)).
      { intros st2 full2 I2 X2 L2 G2 F2 D2. pose proof (ext_trans _ _ _ X1 X2) as X3.
        constructor; cbn [fst snd]; auto.
        - apply (sch_cov_steps C st st1 st2 (map sof objs) a P2 O1 N1 L2 (x_queue _ _ X3) G2).
        - apply (ext_trans _ _ _ P3 X3).
        - intros b x H K1 K2 K3 Hx. apply in_app_iff in H. destruct H as [H|[<-|[]]].
          + apply (schm_keep _ _ _ _ _ _ _ I2 X3). apply (P5 b x H K1 K2 K3 Hx).
          + apply (schm_keep _ _ _ _ _ _ _ I2 X2). apply N1. apply in_map. exact Hx.
        - intros b t x H K1 K2 K3. apply in_app_iff in H. destruct H as [H|[<-|[]]].
          + destruct (P6 b t x H K1 K2 K3) as [D1 D3]. split; [apply (val_keep _ _ _ _ _ _ _ I2 X3 D1)|].
            intros it n V Et. apply (cov_ext _ _ _ _ (x_queue _ _ X3)). apply (D3 it n V Et).
          + apply (D2 t x K1 K2 K3). }
      destruct (string_dec a kMetadata) as [->|NM].
      { set (types := map (fun s => join (get_schema src s kMetadata)) (map sof objs)).
        assert (TI : forall it, In it (present_items types) <-> exists s, In s (map sof objs) /\ typed src s kMetadata it).
        { intros it. rewrite present_items_in. unfold types. rewrite in_map_iff. split.
          - intros [s [J H]]. apply join_some in J. exists s. auto.
          - intros [s [H J]]. exists s. split; [apply join_some; exact J|exact H]. }
        destruct (visit_ok C L E st1 (present_items types) (IDType TObject) true I1) as [st2 [E2 V]].
        + exact Logic.I.
        + intros it _. exact Logic.I.
        + intros it n H K. apply TI in H. destruct H as [s [H J]]. destruct (ss_ok s H) as [RS F].
          apply (reach_type _ _ _ s kMetadata it n RS F J). apply leads_metadata. exact K.
        + intros; discriminate.
        + rewrite E2. cbn [bind]. eexists. split; [reflexivity|].
          pose proof (ext_visit _ _ _ _ _ _ _ V) as X2. destruct V as [V1 [V2 [V3 [V4 [V5 V6]]]]].
          apply STEP; auto.
          * rewrite V4. reflexivity.
          * intros s t n H T K. apply leads_cases in K. destruct K as [[_ K]|[_ [K _]]]; [|congruence].
            apply (V5 t n); [|exact K]. apply TI. exists s. auto.
          * intros t' x [_ [_ [_ [_ K]]]]. congruence. }
      destruct (string_dec a kName) as [->|NN].
      { eexists. split; [reflexivity|]. apply STEP; auto.
        - apply ext_refl.
        - intros s t' n _ _ K. apply leads_cases in K. destruct K as [[K _]|[K _]]; [discriminate|congruence].
        - intros t' x [_ [_ [_ [K _]]]]. congruence. }
      rewrite not_nil, andb_false_r.
      assert (RG : regular a) by (unfold regular; auto).
      destruct (group_types a NN NM) as [[-> G2]|[t [-> [[x0 [H0 T0]] G2]]]].
      { eexists. split; [reflexivity|]. apply STEP; auto.
        - apply ext_refl.
        - intros s t n H T _. apply in_map_iff in H. destruct H as [x [<- H]]. exfalso. apply (G2 x t H T).
        - intros t x _ T H. exfalso. apply (G2 x t H T). }
      destruct (sof_ok x0 (GO x0 H0)) as [V0 [F0 [RI0 RS0]]].
      destruct (type_reach (sof x0) a t RS0 F0 NN NM T0) as [T1 T2].
      assert (NS : a <> kSchemaAttr).
      { intros ->. pose proof (w_reserved _ _ _ _ W (sof x0) RS0 F0). unfold typed in T0. congruence. }
      assert (TX : forall x it, In x objs -> value src x a = Some it -> typed src (sof x) a t).
      { intros x it H V. destruct (sof_ok x (GO x H)) as [Vx [Fx [RIx RSx]]].
        destruct (w_declared _ _ _ _ W x (sof x) a it (GO x H) Vx RG NS V) as [t' T'].
        rewrite <- (G2 x t' H T'). exact T'. }
      destruct (process_attribute_ok C L E st1 objs a t full I1) as [st2 [full2 [E2 [F2 [I2 [X2 [L2 [D2 S2]]]]]]]].
      - intros x H. apply object_data. apply GO. exact H.
      - exact P4.
      - exact T1.
      - exact T2.
      - intros x it H V. destruct (sof_ok x (GO x H)) as [Vx [Fx [RIx RSx]]]. pose proof (TX x it H V) as T.
        split; [|split].
        + right. exists (sof x), t. auto.
        + apply (w_attr _ _ _ _ W x (sof x) a t it RIx Fx RG T V).
        + intros n K. apply (reach_attr _ _ _ x (sof x) a t it n RIx Fx RG T V K).
      - exists (st2, full2). split; [exact E2|]. apply STEP; auto.
        + intros s t' n H T K. apply in_map_iff in H. destruct H as [x [<- H]].
          rewrite (G2 x t' H T) in K. apply leads_cases in K. destruct K as [[K _]|[_ [_ [s' [K2 ->]]]]]; [congruence|].
          apply (S2 s' K2).
        + intros t' x _ T H. rewrite (G2 x t' H T). apply (D2 x H).
    Qed.

    Hypothesis GD : NoDup objs.
    Hypothesis GE : forall x, In x objs -> ~ In x E.

    Lemma objects_lists_ok st :
      Inv C L E st -> sch_cov C st ->
      exists st', objects_lists src st objs (map Some (map sof objs)) = Ok st' /\
        Inv C L (objs ++ E) st' /\ sch_cov C st' /\ ext st st' /\
        (forall x, In x objs -> nsch (s_new st') (sof x) kItems = get_schema src (sof x) kItems) /\
        (forall x t, In x objs -> typed src (sof x) kItems t ->
           nlist (s_new st') x = get_list src x /\
           forall l it n, get_list src x = Some l -> In (Some it) l -> enters it t n -> cov C st' n).
    Proof.
      intros I SC. unfold objects_lists.
      destruct (copy_schemas_ok C L E st (map sof objs) kItems I ss_ok) as [st1 [u [E1 [I1 [X1 [Q1 [N1 O1]]]]]]].
      rewrite E1. cbn [bind]. rewrite not_nil, andb_false_r.
      assert (NN : kItems <> kName) by discriminate. assert (NM : kItems <> kMetadata) by discriminate.
      destruct (group_types kItems NN NM) as [[-> G2]|[t [-> [[x0 [H0 T0]] G2]]]].
      - exists st1. split; [reflexivity|].
        split; [apply (Inv_more C L E); [exact I1|intros y Hy; apply in_app_iff; now right]|].
        split.
        { apply (sch_cov_steps C st st1 st1 (map sof objs) kItems SC O1 N1 eq_refl (x_queue _ _ X1)).
          intros s t n H T _. apply in_map_iff in H. destruct H as [x [<- H]]. exfalso. apply (G2 x t H T). }
        split; [exact X1|]. split; [intros x H; apply N1, in_map, H|].
        intros x t H T. exfalso. apply (G2 x t H T).
      - destruct (sof_ok x0 (GO x0 H0)) as [V0 [F0 [RI0 RS0]]].
        destruct (type_reach (sof x0) kItems t RS0 F0 NN NM T0) as [T1 T2].
        assert (TX : forall x, In x objs -> typed src (sof x) kItems t).
        { intros x H. destruct (group_uniform x0 x kItems t H0 H NN NM T0) as [K|[[K _] _]]; [exact K|congruence]. }
        destruct (process_lists_ok C L E st1 objs t I1 GD GE T1 T2) as [st2 [E2 [I2 [X2 [L2 [D2 S2]]]]]].
        { intros x H. exists (sof x). destruct (sof_ok x (GO x H)) as [Vx [Fx [RIx RSx]]]. auto. }
        exists st2. split; [exact E2|]. split; [exact I2|]. split; [|split; [apply (ext_trans _ _ _ X1 X2)|split]].
        + apply (sch_cov_steps C st st1 st2 (map sof objs) kItems SC O1 N1 L2).
          { rewrite <- Q1. apply (x_queue _ _ X2). }
          intros s t' n H T K. apply in_map_iff in H. destruct H as [x [<- H]].
          rewrite (G2 x t' H T) in K. apply leads_cases in K. destruct K as [[K _]|[_ [_ [s' [K2 ->]]]]]; [congruence|].
          apply (S2 s' K2).
        + intros x H. rewrite L2. apply N1, in_map, H.
        + intros x t' H T. rewrite (G2 x t' H T). apply (D2 x H).
    Qed.

    Lemma objects_dicts_ok E' st :
      Inv C L E' st -> sch_cov C st ->
      exists st', objects_dicts src st objs (map Some (map sof objs)) = Ok st' /\
        Inv C L E' st' /\ sch_cov C st' /\ ext st st' /\
        (forall x, In x objs -> nsch (s_new st') (sof x) kKeys = get_schema src (sof x) kKeys) /\
        (forall x, In x objs -> nsch (s_new st') (sof x) kValues = get_schema src (sof x) kValues) /\
        (forall x t, In x objs -> typed src (sof x) kKeys t ->
           forall k, ndict (s_new st') x k = get_dict src x k /\
           forall n, get_dict src x k <> None -> enters k t n -> cov C st' n) /\
        (forall x t, In x objs -> typed src (sof x) kValues t ->
           forall k it n, get_dict src x k = Some (Some it) -> enters it t n -> cov C st' n).
    Proof.
      intros I SC. unfold objects_dicts.
      destruct (copy_schemas_ok C L E' st (map sof objs) kKeys I ss_ok) as [st1 [u1 [E1 [I1 [X1 [Q1 [N1 O1]]]]]]].
      rewrite E1. cbn [bind].
      destruct (copy_schemas_ok C L E' st1 (map sof objs) kValues I1 ss_ok) as [st2 [u2 [E2 [I2 [X2 [Q2 [N2 O2]]]]]]].
      rewrite E2. cbn [bind]. rewrite not_nil, andb_false_r.
      pose proof (ext_trans _ _ _ X1 X2) as X12.
      assert (NN : kKeys <> kName) by discriminate. assert (NM : kKeys <> kMetadata) by discriminate.
      assert (VN : kValues <> kName) by discriminate. assert (VM : kValues <> kMetadata) by discriminate.
      assert (KV : kKeys <> kValues) by discriminate.
      assert (N1' : forall s, In s (map sof objs) -> nsch (s_new st2) s kKeys = get_schema src s kKeys).
      { intros s H. rewrite O2 by (intros [_ K]; congruence). apply N1. exact H. }
      assert (SCF : forall st3, l_schemas (s_new st3) = l_schemas (s_new st2) -> incl (s_queue st2) (s_queue st3) ->
        (forall s t n, In s (map sof objs) -> typed src s kKeys t -> leads kKeys t n -> cov C st3 n) ->
        (forall s t n, In s (map sof objs) -> typed src s kValues t -> leads kValues t n -> cov C st3 n) ->
        sch_cov C st3).
      { intros st3 L3 Q3 H1 H2 s a t n K Ld. rewrite L3 in K.
        destruct (in_dec id_eq_dec s (map sof objs)) as [J|J].
        - destruct (string_dec a kValues) as [->|NV].
          { rewrite (N2 s J) in K. apply (H2 s t n J K Ld). }
          destruct (string_dec a kKeys) as [->|NK].
          { rewrite (N1' s J) in K. apply (H1 s t n J K Ld). }
          rewrite O2, O1 in K by tauto. apply (cov_ext C st st3); [|apply (SC s a t n K Ld)].
          rewrite <- Q1, <- Q2. exact Q3.
        - rewrite O2, O1 in K by tauto. apply (cov_ext C st st3); [|apply (SC s a t n K Ld)].
          rewrite <- Q1, <- Q2. exact Q3. }
      (* keys and values come together *)
      assert (BOTH : forall x, In x objs -> (exists t, typed src (sof x) kKeys t) <-> (exists t, typed src (sof x) kValues t)).
      { intros x H. destruct (sof_ok x (GO x H)) as [_ [Fx [_ RSx]]]. split; intros [t T].
        - destruct (w_dict_schema _ _ _ _ W (sof x) RSx Fx) as [_ [K _]]; [left; unfold typed in T; congruence|].
          apply (part_typed (sof x) kValues RSx Fx); auto.
        - destruct (w_dict_schema _ _ _ _ W (sof x) RSx Fx) as [K _]; [right; unfold typed in T; congruence|].
          apply (part_typed (sof x) kKeys RSx Fx); auto. }
      destruct (group_types kKeys NN NM) as [[GK1 GK2]|[kt [GK1 [[x0 [H0 T0]] GK2]]]];
      destruct (group_types kValues VN VM) as [[GV1 GV2]|[vt [GV1 [[y0 [J0 U0]] GV2]]]].
      - rewrite GK1. cbn iota.
        set (pairs := map _ (combine _ _)).
        assert (PN : groups (pair_eq_dec item_eq_dec item_eq_dec) pairs = []).
        { destruct (groups (pair_eq_dec item_eq_dec item_eq_dec) pairs) as [|p r] eqn:G; [reflexivity|].
          exfalso. assert (Ip : In p (groups (pair_eq_dec item_eq_dec item_eq_dec) pairs)) by (rewrite G; now left).
          apply groups_in in Ip. unfold pairs in Ip. apply in_map_iff in Ip. destruct Ip as [[k v] [K1 K2]].
          destruct k as [k|]; [|discriminate].
          apply in_combine_l in K2. apply (proj2 (groups_in item_eq_dec k _)) in K2. rewrite GK1 in K2. destruct K2. }
        rewrite PN. exists st2. split; [reflexivity|]. split; [exact I2|]. split.
        { apply (SCF st2); auto using incl_refl.
          - intros s t n H T _. apply in_map_iff in H. destruct H as [x [<- H]]. exfalso. apply (GK2 x t H T).
          - intros s t n H T _. apply in_map_iff in H. destruct H as [x [<- H]]. exfalso. apply (GV2 x t H T). }
        split; [exact X12|]. split; [intros x H; apply N1', in_map, H|]. split; [intros x H; apply N2, in_map, H|].
        split; intros x t H T; exfalso; [apply (GK2 x t H T)|apply (GV2 x t H T)].
      - exfalso. destruct (proj2 (BOTH y0 J0)) as [t T]; [exists vt; exact U0|]. apply (GK2 y0 t J0 T).
      - exfalso. destruct (proj1 (BOTH x0 H0)) as [t T]; [exists kt; exact T0|]. apply (GV2 x0 t H0 T).
      - rewrite GK1, GV1.
        destruct (sof_ok x0 (GO x0 H0)) as [_ [F0 [_ RS0]]].
        destruct (type_reach (sof x0) kKeys kt RS0 F0 NN NM T0) as [T1 T2].
        destruct (sof_ok y0 (GO y0 J0)) as [_ [F1 [_ RS1]]].
        destruct (type_reach (sof y0) kValues vt RS1 F1 VN VM U0) as [U1 U2].
        destruct (process_dicts_ok C L E' st2 objs kt vt I2 T1 T2 U1 U2) as [st3 [E3 [I3 [X3 [L3 [D3 [S3 S4]]]]]]].
        { intros x H. exists (sof x). destruct (sof_ok x (GO x H)) as [Vx [Fx [RIx RSx]]].
          split; [exact RIx|]. split; [exact Fx|]. split.
          - destruct (group_uniform x0 x kKeys kt H0 H NN NM T0) as [K|[[_ [K _]] _]]; [exact K|congruence].
          - destruct (group_uniform y0 x kValues vt J0 H VN VM U0) as [K|[[_ [_ [K _]]] _]]; [exact K|congruence]. }
        exists st3. split; [exact E3|]. split; [exact I3|]. split; [|split; [apply (ext_trans _ _ _ X12 X3)|]].
        + apply (SCF st3 L3 (x_queue _ _ X3)).
          * intros s t' n H T K. apply in_map_iff in H. destruct H as [x [<- H]].
            rewrite (GK2 x t' H T) in K. apply leads_cases in K. destruct K as [[K _]|[_ [_ [s' [K2 ->]]]]]; [discriminate|].
            apply (S3 s' K2).
          * intros s t' n H T K. apply in_map_iff in H. destruct H as [x [<- H]].
            rewrite (GV2 x t' H T) in K. apply leads_cases in K. destruct K as [[K _]|[_ [_ [s' [K2 ->]]]]]; [discriminate|].
            apply (S4 s' K2).
        + rewrite L3. split; [intros x H; apply N1', in_map, H|]. split; [intros x H; apply N2, in_map, H|]. split.
          * intros x t H T k. rewrite (GK2 x t H T). split; apply (D3 x k H).
          * intros x t H T k. rewrite (GV2 x t H T). apply (D3 x k H).
    Qed.

    Variable repr : id.
    Hypothesis GR : forall x, In x objs -> schema_repr (Some (sof x)) = Some repr.

    Let names := if small (i_alloc repr) then schema_names src repr else alloc_names src (i_alloc repr).

    Lemma group_names x a : In x objs -> get_schema src (sof x) a <> None -> In a names.
    Proof.
      intros H N. pose proof (GR x H) as K. cbn [schema_repr] in K.
      destruct (sof_ok x (GO x H)) as [_ [F _]]. unfold follow in F. rewrite F in K.
      unfold names. destruct (small (i_alloc (sof x))) eqn:B.
      - assert (repr = sof x) by congruence. subst repr. rewrite B. apply schema_names_in. exact N.
      - assert (Er : repr = mkId (i_alloc (sof x)) 0) by congruence. rewrite Er. cbn [i_alloc]. rewrite B.
        apply alloc_names_in. exact N.
    Qed.

    Definition slice_done (st' : state) : Prop :=
      forall x, In x objs -> inst_done C st' x (sof x) /\ sch_done st' (sof x).

    Lemma objects_single_ok st :
      Inv C L E st -> sch_cov C st ->
      exists st', objects_single src st repr objs (map Some (map sof objs)) = Ok st' /\
        Inv C L (objs ++ E) st' /\ sch_cov C st' /\ ext st st' /\ slice_done st'.
    Proof.
      intros I SC. unfold objects_single. fold names.
      assert (G0 : group_post st [] (st, false)).
      { constructor; cbn [fst snd]; auto.
        - apply ext_refl.
        - intros K. discriminate.
        - intros a x [].
        - intros a t x []. }
      assert (LP : forall l dn acc, group_post st dn acc ->
        exists acc', fold_res (objects_attr src objs (map Some (map sof objs))) l acc = Ok acc' /\ group_post st (dn ++ l) acc').
      { induction l as [|a l IH]; intros dn acc P.
        - exists acc. rewrite app_nil_r. auto.
        - destruct (objects_attr_ok st dn acc a P) as [acc1 [E1 P1]].
          destruct (IH (dn ++ [a]) acc1 P1) as [acc2 [E2 P2]].
          exists acc2. cbn [fold_res]. rewrite E1. cbn [bind]. split; [exact E2|].
          rewrite <- app_assoc in P2. exact P2. }
      destruct (LP names [] (st, false) G0) as [[st1 full] [E1 P]]. clear LP G0.
      rewrite E1. cbn [bind]. destruct P as [P1 P2 P3 _ P5 P6]. cbn [fst snd app] in *.
      assert (LI : exists st2, (if has_name kItems names then objects_lists src st1 objs (map Some (map sof objs)) else Ok st1) = Ok st2 /\
        Inv C L (objs ++ E) st2 /\ sch_cov C st2 /\ ext st1 st2 /\
        (forall x, In x objs -> nsch (s_new st2) (sof x) kItems = get_schema src (sof x) kItems) /\
        (forall x t, In x objs -> typed src (sof x) kItems t ->
           nlist (s_new st2) x = get_list src x /\
           forall l it n, get_list src x = Some l -> In (Some it) l -> enters it t n -> cov C st2 n)).
      { destruct (has_name kItems names) eqn:B.
        - apply (objects_lists_ok st1 P1 P2).
        - apply has_name_false in B. exists st1. split; [reflexivity|].
          split; [apply (Inv_more C L E); [exact P1|intros y Hy; apply in_app_iff; now right]|].
          split; [exact P2|]. split; [apply ext_refl|]. split.
          + intros x H. destruct (get_schema src (sof x) kItems) as [c|] eqn:G.
            * exfalso. apply B. apply (group_names x kItems H). congruence.
            * destruct (nsch (s_new st1) (sof x) kItems) as [c|] eqn:N; [|reflexivity].
              apply (i_schm _ _ _ _ P1) in N. destruct N. congruence.
          + intros x t H T. exfalso. apply B. apply (group_names x kItems H). unfold typed in T. congruence. }
      destruct LI as [st2 [E2 [I2 [SC2 [X2 [N2 D2]]]]]]. rewrite E2. cbn [bind]. clear E2.
      assert (LD : exists st3, (if has_name kKeys names || has_name kValues names
            then objects_dicts src st2 objs (map Some (map sof objs)) else Ok st2) = Ok st3 /\
        Inv C L (objs ++ E) st3 /\ sch_cov C st3 /\ ext st2 st3 /\
        (forall x, In x objs -> nsch (s_new st3) (sof x) kKeys = get_schema src (sof x) kKeys) /\
        (forall x, In x objs -> nsch (s_new st3) (sof x) kValues = get_schema src (sof x) kValues) /\
        (forall x t, In x objs -> typed src (sof x) kKeys t ->
           forall k, ndict (s_new st3) x k = get_dict src x k /\
           forall n, get_dict src x k <> None -> enters k t n -> cov C st3 n) /\
        (forall x t, In x objs -> typed src (sof x) kValues t ->
           forall k it n, get_dict src x k = Some (Some it) -> enters it t n -> cov C st3 n)).
      { destruct (has_name kKeys names || has_name kValues names) eqn:B.
        - apply (objects_dicts_ok (objs ++ E) st2 I2 SC2).
        - apply orb_false_iff in B. destruct B as [B1 B2]. apply has_name_false in B1. apply has_name_false in B2.
          exists st2. split; [reflexivity|]. split; [exact I2|]. split; [exact SC2|]. split; [apply ext_refl|].
          assert (NO : forall x a, In x objs -> ~ In a names -> nsch (s_new st2) (sof x) a = get_schema src (sof x) a).
          { intros x a H K. destruct (get_schema src (sof x) a) as [c|] eqn:G.
            - exfalso. apply K. apply (group_names x a H). congruence.
            - destruct (nsch (s_new st2) (sof x) a) as [c|] eqn:N; [|reflexivity].
              apply (i_schm _ _ _ _ I2) in N. destruct N. congruence. }
          split; [intros x H; apply (NO x kKeys H B1)|]. split; [intros x H; apply (NO x kValues H B2)|].
          split; intros x t H T; exfalso.
          + apply B1, (group_names x kKeys H). unfold typed in T. congruence.
          + apply B2, (group_names x kValues H). unfold typed in T. congruence. }
      destruct LD as [st3 [E3 [I3 [SC3 [X3 [N3 [N4 [D3 D4]]]]]]]]. rewrite E3. clear E3.
      exists st3. split; [reflexivity|]. split; [exact I3|]. split; [exact SC3|].
      pose proof (ext_trans _ _ _ X2 X3) as X23. split; [apply (ext_trans _ _ _ P3 X23)|].
      intros x H. split.
      - constructor.
        + intros a t _ G T. destruct (P6 a t x) as [K1 K2]; auto.
          { apply (group_names x a H). unfold typed in T. congruence. }
          split; [apply (val_keep _ _ _ _ _ _ _ I3 X23 K1)|].
          intros it n V En. apply (cov_ext _ _ _ _ (x_queue _ _ X23)). apply (K2 it n V En).
        + intros t _ T. destruct (D2 x t H T) as [K1 K2]. split; [apply (list_keep _ _ _ _ _ _ I3 X3 K1)|].
          intros l it n V J En. apply (cov_ext _ _ _ _ (x_queue _ _ X3)). apply (K2 l it n V J En).
        + intros t _ T k. apply (D3 x t H T k).
        + intros t _ T k n. apply (D3 x t H T k).
        + intros t _ T. apply (D4 x t H T).
      - apply (sch_done_names C L (objs ++ E)); [exact I3|]. intros a c G.
        destruct (string_dec a kKeys) as [->|NK]; [rewrite <- G; apply N3; exact H|].
        destruct (string_dec a kValues) as [->|NV]; [rewrite <- G; apply N4; exact H|].
        destruct (string_dec a kItems) as [->|NI].
        + rewrite <- G. apply (schm_keep _ _ _ _ _ _ _ I3 X3). apply N2. exact H.
        + rewrite <- G. apply (schm_keep _ _ _ _ _ _ _ I3 X23). apply (P5 a x); auto.
          apply (group_names x a H). congruence.
    Qed.
  End Group.

  Definition in_group (r : id) (x : id) : bool :=
    match schema_repr (Some (sof x)) with Some r' => if id_eq_dec r r' then true else false | None => false end.

  Lemma in_group_iff r x : in_group r x = true <-> schema_repr (Some (sof x)) = Some r.
  Proof.
    unfold in_group. destruct (schema_repr (Some (sof x))) as [r'|]; [|split; intros H; discriminate H].
    destruct (id_eq_dec r r') as [->|N]; split; intros H; try reflexivity; try discriminate H. congruence.
  Qed.

  Lemma group_of_filter {A} r (g : id -> A) objs :
    group_of id_eq_dec r (map (fun x => schema_repr (Some (sof x))) objs) (map g objs) = map g (filter (in_group r) objs).
  Proof.
    unfold group_of. induction objs as [|x objs IH]; [reflexivity|]. cbn [map combine flat_map fst snd filter].
    rewrite IH. unfold in_group at 2. destruct (schema_repr (Some (sof x))) as [r'|]; [|reflexivity].
    destruct (id_eq_dec r r'); reflexivity.
  Qed.

  Lemma repr_some x : R (Obj x) ->
    schema_repr (Some (sof x)) = Some (if small (i_alloc (sof x)) then sof x else mkId (i_alloc (sof x)) 0).
  Proof.
    intros H. destruct (sof_ok x H) as [_ [F _]]. unfold follow in F. cbn [schema_repr]. rewrite F. reflexivity.
  Qed.

  Lemma same_repr r x x' : R (Obj x) -> R (Obj x') ->
    schema_repr (Some (sof x)) = Some r -> schema_repr (Some (sof x')) = Some r ->
    sof x = sof x' \/ (i_alloc (sof x) = i_alloc (sof x') /\ small (i_alloc (sof x)) = false).
  Proof.
    intros H H' K K'. rewrite (repr_some x H) in K. rewrite (repr_some x' H') in K'.
    destruct (small (i_alloc (sof x))) eqn:B; destruct (small (i_alloc (sof x'))) eqn:B'.
    - left. congruence.
    - exfalso. assert (Es : sof x = mkId (i_alloc (sof x')) 0) by congruence. rewrite Es in B. cbn [i_alloc] in B. congruence.
    - exfalso. assert (Es : sof x' = mkId (i_alloc (sof x)) 0) by congruence. rewrite Es in B'. cbn [i_alloc] in B'. congruence.
    - right. split; [|reflexivity].
      assert (Es : mkId (i_alloc (sof x)) 0 = mkId (i_alloc (sof x')) 0) by congruence.
      change (i_alloc (mkId (i_alloc (sof x)) 0) = i_alloc (mkId (i_alloc (sof x')) 0)). rewrite Es. reflexivity.
  Qed.

  Lemma objects_with_schemas_ok C L E objs st :
    Inv C L E st -> sch_cov C st -> (forall x, In x objs -> R (Obj x)) ->
    NoDup objs -> (forall x, In x objs -> ~ In x E) ->
    exists st', objects_with_schemas src st objs (map Some (map sof objs)) = Ok st' /\
      Inv C L (objs ++ E) st' /\ sch_cov C st' /\ ext st st' /\ slice_done C objs st'.
  Proof.
    intros I SC RO ND DE. unfold objects_with_schemas.
    assert (ER : map schema_repr (map Some (map sof objs)) = map (fun x => schema_repr (Some (sof x))) objs).
    { rewrite !map_map. reflexivity. }
    rewrite ER. clear ER. set (reprs := map (fun x => schema_repr (Some (sof x))) objs).
    assert (GI : forall r, In r (groups id_eq_dec reprs) <-> exists x, In x objs /\ schema_repr (Some (sof x)) = Some r).
    { intros r. rewrite groups_in. unfold reprs. rewrite in_map_iff. split; intros [x [K1 K2]]; exists x; auto. }
    assert (NG : NoDup (groups id_eq_dec reprs)) by apply NoDup_nodup.
    assert (FOLD : forall rs, rs = groups id_eq_dec reprs ->
      exists st', fold_res (fun st r => objects_single src st r (group_of id_eq_dec r reprs objs)
            (group_of id_eq_dec r reprs (map Some (map sof objs)))) rs st = Ok st' /\
        Inv C L (objs ++ E) st' /\ sch_cov C st' /\ ext st st' /\ slice_done C objs st').
    { intros rs Ers.
      destruct (fold_res_inv (fun dn st' => (exists E', Inv C L E' st' /\
            forall x, In x E' -> In x E \/ (In x objs /\ exists r, In r dn /\ schema_repr (Some (sof x)) = Some r)) /\
          sch_cov C st' /\ ext st st' /\
          forall x r, In x objs -> In r dn -> schema_repr (Some (sof x)) = Some r ->
            inst_done C st' x (sof x) /\ sch_done st' (sof x))
        (fun st r => objects_single src st r (group_of id_eq_dec r reprs objs)
            (group_of id_eq_dec r reprs (map Some (map sof objs)))) rs st) as [st' [E1 [[E' [I1 IE]] [S1 [X1 D1]]]]].
      - split; [exists E; auto|]. split; [exact SC|]. split; [apply ext_refl|]. intros x r _ [].
      - intros dn r rest st1 El [[E' [I1 IE]] [S1 [X1 D1]]].
        assert (G1 : group_of id_eq_dec r reprs objs = filter (in_group r) objs).
        { pose proof (group_of_filter r (fun x => x) objs) as K. rewrite !map_id in K. exact K. }
        assert (G2 : group_of id_eq_dec r reprs (map Some (map sof objs)) = map Some (map sof (filter (in_group r) objs))).
        { rewrite !map_map. apply (group_of_filter r (fun x => Some (sof x)) objs). }
        rewrite G1, G2. set (os := filter (in_group r) objs).
        assert (OI : forall x, In x os -> In x objs /\ schema_repr (Some (sof x)) = Some r).
        { intros x H. apply filter_In in H. rewrite in_group_iff in H. exact H. }
        assert (Ir : In r (groups id_eq_dec reprs)) by (rewrite <- Ers, El, in_app_iff; right; now left).
        assert (Nr : ~ In r dn).
        { rewrite <- Ers, El in NG. apply NoDup_remove_2 in NG. rewrite in_app_iff in NG. tauto. }
        destruct (objects_single_ok C L E' os) with (repr := r) (st := st1) as [st2 [E2 [I2 [S2 [X2 D2]]]]]; auto.
        + intros x H. apply RO, OI, H.
        + apply GI in Ir. destruct Ir as [x [K1 K2]]. intros K.
          assert (In x os) by (apply filter_In; rewrite in_group_iff; auto). rewrite K in H. destruct H.
        + intros x x' H H'. destruct (OI x H) as [O1 O2]. destruct (OI x' H') as [O3 O4].
          apply (same_repr r x x' (RO x O1) (RO x' O3) O2 O4).
        + apply NoDup_filter. exact ND.
        + intros x H K. destruct (OI x H) as [O1 O2]. destruct (IE x K) as [K1|[_ [r' [K1 K2]]]]; [apply (DE x O1 K1)|].
          assert (r' = r) by congruence. subst r'. exact (Nr K1).
        + apply OI.
        + exists st2. split; [exact E2|]. split; [|split; [exact S2|split; [apply (ext_trans _ _ _ X1 X2)|]]].
          * exists (os ++ E'). split; [exact I2|]. intros x H. apply in_app_iff in H. destruct H as [H|H].
            { right. destruct (OI x H) as [O1 O2]. split; [exact O1|]. exists r. split; [apply in_app_iff; right; now left|exact O2]. }
            { destruct (IE x H) as [K1|[K1 [r' [K2 K3]]]]; [now left|right]. split; [exact K1|]. exists r'.
              split; [apply in_app_iff; now left|exact K3]. }
          * intros x r' H K1 K2. apply in_app_iff in K1. destruct K1 as [K1|[<-|[]]].
            { destruct (D1 x r' H K1 K2) as [D3 D4]. split; [apply (inst_done_keep _ _ _ _ _ _ _ I2 X2 D3)|apply (sch_done_keep _ _ _ _ _ _ I2 X2 D4)]. }
            { apply (D2 x). apply filter_In. rewrite in_group_iff. auto. }
      - exists st'. split; [exact E1|]. split; [|split; [exact S1|split; [exact X1|]]].
        + apply (Inv_more C L E'); [exact I1|]. intros x H. apply in_app_iff. destruct (IE x H) as [K|[K _]]; auto.
        + intros x H. apply (D1 x (if small (i_alloc (sof x)) then sof x else mkId (i_alloc (sof x)) 0)); auto using repr_some.
          rewrite Ers. apply GI. exists x. auto using repr_some. }
    destruct (groups id_eq_dec reprs) as [|r [|r2 rs]] eqn:G.
    - destruct (FOLD [] eq_refl) as [st' [E1 K]]. exists st'. split; [exact E1|exact K].
    - clear FOLD. assert (AL : forall x, In x objs -> schema_repr (Some (sof x)) = Some r).
      { intros x H. rewrite (repr_some x (RO x H)). f_equal. symmetry.
        assert (K : In (if small (i_alloc (sof x)) then sof x else mkId (i_alloc (sof x)) 0) [r]).
        { apply GI. exists x. split; [exact H|apply (repr_some x (RO x H))]. }
        destruct K as [K|[]]. exact K. }
      destruct (objects_single_ok C L E objs) with (repr := r) (st := st) as [st2 [E2 K]]; auto.
      + destruct (proj1 (GI r) (or_introl eq_refl)) as [x [K1 K2]]. intros ->. destruct K1.
      + intros x x' H H'. apply (same_repr r x x' (RO x H) (RO x' H') (AL x H) (AL x' H')).
      + exists st2. split; [exact E2|exact K].
    - destruct (FOLD (r :: r2 :: rs) eq_refl) as [st' [E1 K]]. exists st'. split; [exact E1|exact K].
  Qed.

  Lemma process_objects_ok C L E objs only st :
    Inv C L E st -> sch_cov C st -> (forall x, In x objs -> R (Obj x)) ->
    (only = false -> NoDup objs /\ forall x, In x objs -> ~ In x E) ->
    exists st', process_objects src st objs only = Ok st' /\
      Inv C L ((if only then [] else objs) ++ E) st' /\ sch_cov C st' /\ ext st st' /\
      (forall x, In x objs -> nval (s_new st') x kSchemaAttr = value src x kSchemaAttr) /\
      (only = false -> slice_done C objs st').
  Proof.
    intros I SC RO DO. unfold process_objects.
    set (f := fun x => get_attr src x kSchemaAttr).
    assert (CE : forall x, In x objs -> f x = Some (Some (IId (sof x)))).
    { intros x H. destruct (sof_ok x (RO x H)) as [V _]. apply value_some in V. exact V. }
    assert (FB : forallb is_id (presents (map f objs)) = true).
    { apply forallb_forall. intros it H. apply presents_in in H. destruct H as [x [H K]]. rewrite (CE x H) in K.
      assert (it = IId (sof x)) by congruence. subst it. reflexivity. }
    rewrite FB. cbn [negb].
    destruct (written_ok C L E st (set_skip_unset (s_new st) objs kSchemaAttr (map f objs)) objs kSchemaAttr (fun _ => False) I)
      as [I1 [X1 V1]].
    - apply set_skip_unset_written.
    - intros x it H _. left. split; [reflexivity|apply RO; exact H].
    - auto.
    - set (st1 := with_new st _) in *.
      assert (SC1 : sch_cov C st1).
      { intros s a t n K Ld. unfold st1 in K. cbn [with_new s_new] in K.
        rewrite (wr_schemas _ _ _ _ _ _ (set_skip_unset_written (s_new st) objs kSchemaAttr f (fun _ => False))) in K.
        apply (cov_ext _ _ _ _ (x_queue _ _ X1)). apply (SC s a t n K Ld). }
      destruct only.
      + rewrite orb_true_r. exists st1. split; [reflexivity|]. split; [exact I1|]. split; [exact SC1|]. split; [exact X1|].
        split; [exact V1|]. intros; discriminate.
      + rewrite orb_false_r. destruct (DO eq_refl) as [ND DE].
        destruct (is_nil (presents (map f objs))) eqn:B.
        * assert (objs = []).
          { destruct objs as [|x r]; [reflexivity|]. exfalso.
            assert (K : In (IId (sof x)) (presents (map f (x :: r)))).
            { apply presents_in. exists x. split; [now left|apply CE; now left]. }
            destruct (presents (map f (x :: r))); [destruct K|discriminate]. }
          subst objs. exists st1. split; [reflexivity|]. split; [exact I1|]. split; [exact SC1|]. split; [exact X1|].
          split; [exact V1|]. intros _ x [].
        * assert (EM : map (fun c => match c with Some (Some (IId s)) => Some s | _ => None end) (map f objs) = map Some (map sof objs)).
          { rewrite !map_map. apply map_ext_in. intros x H. rewrite (CE x H). reflexivity. }
          rewrite EM.
          destruct (objects_with_schemas_ok C L E objs st1 I1 SC1 RO ND DE) as [st2 [E2 [I2 [S2 [X2 D2]]]]].
          exists st2. split; [exact E2|]. split; [exact I2|]. split; [exact S2|]. split; [apply (ext_trans _ _ _ X1 X2)|].
          split; [|intros _; exact D2]. intros x H. apply (val_keep _ _ _ _ _ _ _ I2 X2). apply V1. exact H.
  Qed.

  (** ** The queue *)

  Definition ndone (C : node -> Prop) (st : state) (n : node) : Prop :=
    match n with
    | Obj x => nval (s_new st) x kSchemaAttr = value src x kSchemaAttr /\
        forall s, value src x kSchemaAttr = Some (IId s) -> cov C st (Inst x s)
    | Inst x s => cov C st (Sch s) /\ inst_done C st x s
    | Sch s => sch_done st s
    end.

  Lemma inst_done_cov C C' st st' x s :
    s_new st' = s_new st -> (forall n, cov C st n -> cov C' st' n) -> inst_done C st x s -> inst_done C' st' x s.
  Proof.
    intros En CV [A B D K V]. constructor.
    - intros a t F G T. rewrite En. destruct (A a t F G T) as [A1 A2]. split; [exact A1|eauto].
    - intros t F T. rewrite En. destruct (B t F T) as [B1 B2]. split; [exact B1|eauto].
    - intros t F T. rewrite En. apply (D t F T).
    - intros t F T k n H J. apply CV. apply (K t F T k n H J).
    - intros t F T k it n H J. apply CV. apply (V t F T k it n H J).
  Qed.

  Lemma ndone_cov C C' st st' n :
    s_new st' = s_new st -> (forall n, cov C st n -> cov C' st' n) -> ndone C st n -> ndone C' st' n.
  Proof.
    intros En CV. destruct n as [x s|x|s]; cbn [ndone].
    - intros [H K]. split; [auto|apply (inst_done_cov C C' st st' x s En CV K)].
    - intros [H K]. rewrite En. split; [exact H|auto].
    - unfold sch_done. rewrite En. auto.
  Qed.

  Lemma ndone_keep C L E st st' n : Inv C L E st' -> ext st st' -> ndone C st n -> ndone C st' n.
  Proof.
    intros I X. assert (CV : forall n, cov C st n -> cov C st' n) by (intros m; apply cov_ext, (x_queue _ _ X)).
    destruct n as [x s|x|s]; cbn [ndone].
    - intros [H K]. split; [auto|apply (inst_done_keep _ _ _ _ _ _ _ I X K)].
    - intros [H K]. split; [apply (val_keep _ _ _ _ _ _ _ I X H)|auto].
    - apply (sch_done_keep _ _ _ _ _ _ I X).
  Qed.

  Definition qinv (D : node -> Prop) (L : list id) (st : state) : Prop :=
    Inv D L L st /\ sch_cov D st /\ forall n, D n -> ndone D st n.

  Lemma pop_ok D L st q r :
    s_queue st = q :: r -> qinv D L st ->
    let st0 := mkState (s_new st) r (s_seen st) (s_seen_obj st) (s_seen_schema st) in
    let D' := fun n => D n \/ pend q n in
    Inv D' (data_items q ++ L) L st0 /\ sch_cov D' st0 /\ (forall n, D n -> ndone D' st0 n) /\
    qok q /\ NoDup (data_items q) /\ (forall x, In x (data_items q) -> ~ In x L) /\ incl (q_items q) (s_seen st).
  Proof.
    intros Q [I [SC DN]] st0 D'.
    assert (CV : forall n, cov D st n -> cov D' st0 n).
    { intros n [H|[q' [H K]]]; [left; left; exact H|]. rewrite Q in H. destruct H as [<-|H].
      - left. right. exact K.
      - right. exists q'. auto. }
    pose proof (i_nodup _ _ _ _ I) as ND. rewrite Q in ND. cbn [flat_map] in ND.
    assert (NDD : NoDup (data_items q) /\ NoDup (flat_map data_items r) /\ forall x, In x (data_items q) -> ~ In x (flat_map data_items r)).
    { clear -ND. induction (data_items q) as [|x l IH]; cbn [app] in ND.
      - split; [constructor|]. split; [exact ND|]. intros x [].
      - inversion ND; subst. destruct (IH H2) as [K1 [K2 K3]]. rewrite in_app_iff in H1. split; [constructor; tauto|].
        split; [exact K2|]. intros y [<-|H]; [tauto|apply (K3 y H)]. }
    destruct NDD as [ND1 [ND2 ND3]].
    assert (IQ : forall q', In q' r -> In q' (s_queue st)) by (intros; rewrite Q; now right).
    assert (I0 : In q (s_queue st)) by (rewrite Q; now left).
    split; [|split; [|split; [|split; [|split; [|split]]]]].
    - destruct I as [J1 J2 J3 J4 J5 J6 J7 J8 J9 J10 J11 J12 J13]. constructor; unfold st0; cbn [s_queue s_seen s_seen_obj s_seen_schema s_new]; auto.
      + intros x H K. apply in_app_iff in K. destruct K as [K|K]; [apply (ND3 x K H)|].
        apply (J3 x); [|exact K]. rewrite Q. cbn [flat_map]. apply in_app_iff. now right.
      + intros x H. apply in_app_iff in H. destruct H as [H|H]; [|apply (J5 x H)].
        apply (J4 q I0). unfold data_items in H. destruct (q_only q); [destruct H|exact H].
    - intros s a t n K Ld. apply CV. apply (SC s a t n K Ld).
    - intros n H. apply (ndone_cov D D' st st0 n eq_refl CV (DN n H)).
    - apply (i_q _ _ _ _ I q I0).
    - exact ND1.
    - intros x H. apply (i_disj _ _ _ _ I x). rewrite Q. cbn [flat_map]. apply in_app_iff. now left.
    - apply (i_seen_q _ _ _ _ I q I0).
  Qed.

  Lemma step_ok D L st q r :
    s_queue st = q :: r -> qinv D L st ->
    exists st', process src (mkState (s_new st) r (s_seen st) (s_seen_obj st) (s_seen_schema st)) q = Ok st' /\
      incl r (s_queue st') /\ qinv (fun n => D n \/ pend q n) (data_items q ++ L) st'.
  Proof.
    intros Q QI. destruct (pop_ok D L st q r Q QI) as [I0 [S0 [DN0 [QO [ND [DL SE]]]]]].
    set (st0 := mkState (s_new st) r _ _ _) in *. set (D' := fun n => D n \/ pend q n) in *. cbn zeta in *.
    set (L' := data_items q ++ L) in *.
    assert (FIN : forall st', Inv D' L' L' st' -> sch_cov D' st' -> ext st0 st' ->
       (forall n, pend q n -> ndone D' st' n) -> qinv D' L' st').
    { intros st' I1 S1 X1 H. split; [exact I1|]. split; [exact S1|]. intros n [K|K]; [|apply (H n K)].
      apply (ndone_keep D' L' L' st0 st' n I1 X1 (DN0 n K)). }
    destruct q as [items t only]. cbn [q_items q_schema q_only] in *. unfold process, qok in *. cbn [q_items q_schema q_only] in *.
    destruct t as [s|p v|[| | |p]]; try (destruct QO; fail).
    - destruct QO as [-> [RS RI]].
      assert (EI : data_items (mkQ items (IId s) false) = items) by reflexivity. rewrite EI in *.
      destruct (process_entities_ok D' L' L st0 items s I0 S0 RS ND DL RI) as [st' [E1 [I1 [S1 [X1 [D1 D2]]]]]].
      exists st'. split; [exact E1|]. split; [apply (x_queue _ _ X1)|]. apply FIN; auto.
      intros n P. destruct n as [x s'|x|s']; cbn [pend q_items q_schema q_only ndone] in *.
      + destruct P as [P1 [_ [P2|[P2 _]]]]; [|discriminate]. assert (s' = s) by congruence. subst s'.
        split; [left; right; cbn; now left|apply D2; exact P1].
      + destruct P as [_ P]. discriminate.
      + destruct P as [P|[[P _]|[P _]]]; try discriminate. assert (s' = s) by congruence. subst s'. exact D1.
    - destruct (process_objects_ok D' L' L items only st0 I0 S0 QO) as [st' [E1 [I1 [S1 [X1 [V1 D1]]]]]].
      { intros ->. split; [exact ND|exact DL]. }
      exists st'. split; [exact E1|]. split; [apply (x_queue _ _ X1)|].
      apply FIN; [exact I1|exact S1|exact X1|].
      { intros n P. destruct n as [x s'|x|s']; cbn [pend q_items q_schema q_only ndone] in *.
        * destruct P as [P1 [P2 [P3|[_ P3]]]]; [discriminate|]. destruct (D1 P2 x P1) as [D2 D3].
          assert (Es : sof x = s') by (unfold sof; rewrite P3; reflexivity). rewrite Es in *.
          split; [|exact D2]. left. right. cbn [pend q_items q_schema q_only]. right. right. split; [reflexivity|].
          split; [exact P2|]. exists x. auto.
        * destruct P as [P1 _]. split; [apply V1; exact P1|]. intros s K.
          apply (i_seen _ _ _ _ I1 x s); [apply (x_seen _ _ X1), SE, P1|].
          apply (reach_object _ _ _ x s (QO x P1) K).
        * destruct P as [P|[[P _]|[_ [P1 [x [P2 P3]]]]]]; try discriminate. destruct (D1 P1 x P2) as [D2 D3].
          assert (Es : sof x = s') by (unfold sof; rewrite P3; reflexivity). rewrite Es in *. exact D3. }
    - destruct (process_schemas_ok D' L' L st0 items I0 S0 QO) as [st' [E1 [I1 [S1 [X1 D1]]]]].
      exists st'. split; [exact E1|]. split; [apply (x_queue _ _ X1)|]. apply FIN; auto.
      + apply (Inv_more D' L' L); [exact I1|]. intros x H. apply in_app_iff. now right.
      + intros n P. destruct n as [x s'|x|s']; cbn [pend q_items q_schema q_only ndone] in *.
        * destruct P as [_ [_ [P|[P _]]]]; discriminate.
        * destruct P as [_ P]; discriminate.
        * destruct P as [P|[[_ P]|[P _]]]; try discriminate. apply D1. exact P.
  Qed.

  Lemma queue_ok fuel : forall D L st, qinv D L st ->
    process_queue src fuel st = Err OutOfFuel \/
    exists D' L' st', process_queue src fuel st = Ok st' /\ qinv D' L' st' /\ s_queue st' = [] /\
      forall n, cov D st n -> D' n.
  Proof.
    assert (NIL : forall D L st, s_queue st = [] -> qinv D L st ->
      exists D' L' st', Ok st = Ok st' /\ qinv D' L' st' /\ s_queue st' = [] /\ forall n, cov D st n -> D' n).
    { intros D L st Q QI. exists D, L, st. split; [reflexivity|]. split; [exact QI|]. split; [exact Q|].
      intros n [H|[q [H _]]]; [exact H|]. rewrite Q in H. destruct H. }
    induction fuel as [|fuel IH]; intros D L st QI; cbn [process_queue]; destruct (s_queue st) as [|q r] eqn:Q.
    - right. apply (NIL D L st Q QI).
    - left. reflexivity.
    - right. apply (NIL D L st Q QI).
    - destruct (step_ok D L st q r Q QI) as [st1 [E1 [R1 Q1]]]. rewrite E1. cbn [bind].
      destruct (IH _ _ _ Q1) as [K|[D' [L' [st' [K1 [K2 [K3 K4]]]]]]]; [left; exact K|right].
      exists D', L', st'. split; [exact K1|]. split; [exact K2|]. split; [exact K3|].
      intros n [H|[q' [H1 H2]]]; [apply K4; left; left; exact H|]. rewrite Q in H1. destruct H1 as [<-|H1].
      + apply K4. left. right. exact H2.
      + apply K4. right. exists q'. auto.
  Qed.

  Lemma init_ok : exists st, visit (mkState empty_layer [] [] [] []) ds (Some sch) false = Ok st /\
    qinv (fun _ => False) [] st /\
    (forall it n, In it ds -> enters it sch n -> cov (fun _ => False) st n) /\
    (forall s, sch = IId s -> cov (fun _ => False) st (Sch s)).
  Proof.
    set (st0 := mkState empty_layer [] [] [] []).
    assert (I0 : Inv (fun _ => False) [] [] st0).
    { constructor; unfold st0; cbn [s_queue s_seen s_seen_obj s_seen_schema s_new flat_map];
        try (intros; contradiction); try (intros; discriminate).
      - constructor.
      - intros x [].
    }
    destruct (visit_ok (fun _ => False) [] [] st0 ds sch false I0 (w_root_type _ _ _ _ W)) as [st [E1 P]].
    - apply (w_root _ _ _ _ W).
    - intros it n. apply reach_root.
    - intros s. apply reach_root_schema.
    - exists st. split; [exact E1|]. destruct P as [P1 [P2 [P3 [P4 [P5 P6]]]]].
      split; [|split; [exact P5|exact P6]]. split; [exact P1|]. split; [|intros n []].
      intros s a t n K. rewrite P4 in K. discriminate.
  Qed.

  (** ** The result *)

  Lemma extract_ok : exists new, extract src ds sch = Ok new /\ extracted src ds sch [new].
  Proof.
    pose proof (extract_ends src ds sch) as NE. unfold extract in *.
    destruct init_ok as [st [E1 [QI [RI RS]]]]. rewrite E1 in *. cbn [bind] in *.
    destruct (queue_ok (4 * List.length (universe src ds sch)) _ _ _ QI) as [K|[D [L [st' [K1 [K2 [K3 K4]]]]]]].
    { exfalso. apply NE. rewrite K. reflexivity. }
    rewrite K1. cbn [bind]. exists (s_new st'). split; [reflexivity|].
    destruct K2 as [I [SC DN]].
    assert (CD : forall n, cov D st' n -> D n).
    { intros n [H|[q [H _]]]; [exact H|]. rewrite K3 in H. destruct H. }
    assert (RD : forall n, R n -> D n).
    { intros n H. induction H.
      - apply K4, (RI it n H H0).
      - apply K4, (RS s H).
      - destruct (DN _ IHreach) as [_ K]. apply CD, (K s H0).
      - destruct (DN _ IHreach) as [K _]. apply CD, K.
      - destruct (DN _ IHreach) as [_ K]. destruct (d_attr _ _ _ _ K a t) as [_ K5]; auto. apply CD, (K5 it n H3 H4).
      - destruct (DN _ IHreach) as [_ K]. destruct (d_list _ _ _ _ K t) as [_ K5]; auto. apply CD, (K5 l it n H2 H3 H4).
      - destruct (DN _ IHreach) as [_ K]. apply CD, (d_key _ _ _ _ K t H0 H1 k n H2 H3).
      - destruct (DN _ IHreach) as [_ K]. apply CD, (d_value _ _ _ _ K t H0 H1 k it n H2 H3).
      - pose proof (DN _ IHreach H0 a) as K. apply CD, (SC s a t n); [|exact H2]. rewrite K. exact H1. }
    constructor.
    - intros x a [[-> H]|[s [t [H [F [G T]]]]]].
      + destruct (DN _ (RD _ H)) as [K _]. rewrite value_one. exact K.
      + destruct (DN _ (RD _ H)) as [_ K]. destruct (d_attr _ _ _ _ K a t F G T) as [K5 _]. rewrite value_one. exact K5.
    - intros x a H. rewrite value_one. destruct (nval (s_new st') x a) as [v|] eqn:N; [|reflexivity].
      apply nval_some, (i_attr _ _ _ _ I) in N. exfalso. apply H, N. discriminate.
    - intros x a H. rewrite get_attr_one in H. apply (i_attr _ _ _ _ I) in H. apply H.
    - intros x [s [t [H [F T]]]]. destruct (DN _ (RD _ H)) as [_ K]. destruct (d_list _ _ _ _ K t F T) as [K5 _].
      rewrite get_list_one. exact K5.
    - intros x H. rewrite get_list_one. destruct (nlist (s_new st') x) as [l|] eqn:N; [|reflexivity].
      apply (i_list _ _ _ _ I) in N. exfalso. apply H, N.
    - intros x k [s [t [H [F T]]]]. destruct (DN _ (RD _ H)) as [_ K]. rewrite get_dict_one.
      apply (d_dict _ _ _ _ K t F T k).
    - intros x k H. rewrite get_dict_one. destruct (ndict (s_new st') x k) as [c|] eqn:N; [|reflexivity].
      apply (i_dict _ _ _ _ I) in N. exfalso. apply H, N.
    - intros s a H F. rewrite get_schema_one. apply (DN _ (RD _ H) F a).
    - intros s a H. rewrite get_schema_one. destruct (nsch (s_new st') s a) as [c|] eqn:N; [|reflexivity].
      apply (i_schm _ _ _ _ I) in N. exfalso. apply H, N.
  Qed.
End Correct.

(** ** Consequences *)

Lemma keys_too src ds sch real s t : well_formed src ds sch real ->
  reach src ds sch (Sch s) -> follow s -> typed src s kValues t -> exists kt, typed src s kKeys kt.
Proof.
  intros W RS F T. destruct (w_dict_schema _ _ _ _ W s RS F) as [K _]; [right; unfold typed in T; congruence|].
  pose proof (w_parts _ _ _ _ W s kKeys RS F (or_intror (or_introl eq_refl))) as P. unfold typed.
  destruct (get_schema src s kKeys) as [[kt|]|]; [exists kt; reflexivity|congruence|congruence].
Qed.

Lemma reach_same src ds sch real new :
  well_formed src ds sch real -> extracted src ds sch new -> forall n, reach new ds sch n <-> reach src ds sch n.
Proof.
  intros W X n. destruct X as [EA EO _ EL EL' ED ED' ES ES']. split; intros H.
  - induction H.
    + apply (reach_root _ _ _ it n H H0).
    + apply (reach_root_schema _ _ _ s H).
    + apply (reach_object _ _ _ x s IHreach). rewrite <- EA; [exact H0|]. left. auto.
    + apply (reach_schema _ _ _ x s IHreach).
    + pose proof (reach_schema _ _ _ _ _ IHreach) as RS.
      assert (T : typed src s a t) by (unfold typed in *; rewrite <- ES; auto).
      apply (reach_attr _ _ _ x s a t it n IHreach); auto. rewrite <- EA; [exact H3|]. right. exists s, t. auto.
    + pose proof (reach_schema _ _ _ _ _ IHreach) as RS.
      assert (T : typed src s kItems t) by (unfold typed in *; rewrite <- ES; auto).
      apply (reach_item _ _ _ x s t l it n IHreach); auto. rewrite <- EL; [exact H2|]. exists s, t. auto.
    + pose proof (reach_schema _ _ _ _ _ IHreach) as RS.
      assert (T : typed src s kKeys t) by (unfold typed in *; rewrite <- ES; auto).
      apply (reach_key _ _ _ x s t k n IHreach); auto. rewrite <- ED; [exact H2|]. exists s, t. auto.
    + pose proof (reach_schema _ _ _ _ _ IHreach) as RS.
      assert (T : typed src s kValues t) by (unfold typed in *; rewrite <- ES; auto).
      destruct (keys_too _ _ _ _ s t W RS H0 T) as [kt KT].
      apply (reach_value _ _ _ x s t k it n IHreach); auto. rewrite <- ED; [exact H2|]. exists s, kt. auto.
    + apply (reach_type _ _ _ s a t n IHreach); auto. unfold typed in *. rewrite <- ES; auto.
  - induction H.
    + apply (reach_root _ _ _ it n H H0).
    + apply (reach_root_schema _ _ _ s H).
    + apply (reach_object _ _ _ x s IHreach). rewrite EA; [exact H0|]. left. auto.
    + apply (reach_schema _ _ _ x s IHreach).
    + pose proof (reach_schema _ _ _ _ _ H) as RS.
      apply (reach_attr _ _ _ x s a t it n IHreach); auto.
      * unfold typed in *. rewrite ES; auto.
      * rewrite EA; [exact H3|]. right. exists s, t. auto.
    + pose proof (reach_schema _ _ _ _ _ H) as RS.
      apply (reach_item _ _ _ x s t l it n IHreach); auto.
      * unfold typed in *. rewrite ES; auto.
      * rewrite EL; [exact H2|]. exists s, t. auto.
    + pose proof (reach_schema _ _ _ _ _ H) as RS.
      apply (reach_key _ _ _ x s t k n IHreach); auto.
      * unfold typed in *. rewrite ES; auto.
      * rewrite ED; [exact H2|]. exists s, t. auto.
    + pose proof (reach_schema _ _ _ _ _ H) as RS.
      destruct (keys_too _ _ _ _ s t W RS H0 H1) as [kt KT].
      apply (reach_value _ _ _ x s t k it n IHreach); auto.
      * unfold typed in *. rewrite ES; auto.
      * rewrite ED; [exact H2|]. exists s, kt. auto.
    + apply (reach_type _ _ _ s a t n IHreach); auto. unfold typed in *. rewrite ES; auto.
Qed.


Lemma is_regular_iff a : is_regular a = true <-> regular a.
Proof.
  unfold is_regular, regular. rewrite negb_true_iff. cbn [existsb]. rewrite !orb_false_iff.
  assert (E : forall k, (if string_dec a k then true else false) = false <-> a <> k).
  { intros k. destruct (string_dec a k); intuition congruence. }
  rewrite !E. tauto.
Qed.

Section Reads.
  Variables (src : bag) (ds : list item) (sch : item) (real : alloc -> nat) (new : bag).
  Hypothesis W : well_formed src ds sch real.
  Hypothesis X : extracted src ds sch new.

  Lemma typed_read_same s a v v' : reach src ds sch (Sch s) -> follow s ->
    ((exists t, typed src s a t) -> v' = v) -> typed_read new s a v' = typed_read src s a v.
  Proof.
    intros RS F H. unfold typed_read. rewrite (e_schema _ _ _ _ X s a RS F). unfold typed in H.
    destruct (get_schema src s a) as [[t|]|]; [|reflexivity|reflexivity]. rewrite H; [reflexivity|eauto].
  Qed.

  Lemma read_one_same x s p : reach src ds sch (Inst x s) -> read_one new x s p = read_one src x s p.
  Proof.
    intros RI. pose proof (reach_schema _ _ _ _ _ RI) as RS. unfold read_one.
    destruct (a_kind (i_alloc s)) as [| | |[|]] eqn:K; try reflexivity.
    assert (F : follow s) by exact K. destruct p as [a|i|k].
    - destruct (is_regular a) eqn:G; [|reflexivity]. apply is_regular_iff in G.
      apply typed_read_same; auto. intros [t T]. apply (e_attr _ _ _ _ X). right. exists s, t. auto.
    - apply typed_read_same; auto. intros [t T]. rewrite (e_list _ _ _ _ X x); [reflexivity|]. exists s, t. auto.
    - apply typed_read_same; auto. intros [t T]. destruct (keys_too _ _ _ _ s t W RS F T) as [kt KT].
      rewrite (e_dict _ _ _ _ X x k); [reflexivity|]. exists s, kt. auto.
  Qed.

  Lemma read_one_reach x s p it t n : reach src ds sch (Inst x s) ->
    read_one src x s p = Some (it, t) -> enters it t n -> reach src ds sch n.
  Proof.
    intros RI H En. unfold read_one in H. destruct (a_kind (i_alloc s)) as [| | |[|]] eqn:K; try discriminate.
    assert (F : follow s) by exact K. destruct p as [a|i|k].
    - destruct (is_regular a) eqn:G; [|discriminate]. apply is_regular_iff in G. unfold typed_read in H.
      destruct (get_schema src s a) as [[t'|]|] eqn:T; try discriminate.
      destruct (value src x a) as [v|] eqn:V; [|discriminate]. assert (v = it) by congruence. assert (t' = t) by congruence. subst.
      apply (reach_attr _ _ _ x s a t it n RI F G T V En).
    - unfold typed_read in H. destruct (get_schema src s kItems) as [[t'|]|] eqn:T; try discriminate.
      destruct (get_list src x) as [l|] eqn:V; [|discriminate]. destruct (nth_error l i) as [[v|]|] eqn:J; try discriminate.
      assert (v = it) by congruence. assert (t' = t) by congruence. subst.
      apply (reach_item _ _ _ x s t l it n RI F T V (nth_error_In _ _ J) En).
    - unfold typed_read in H. destruct (get_schema src s kValues) as [[t'|]|] eqn:T; try discriminate.
      destruct (get_dict src x k) as [[v|]|] eqn:V; try discriminate.
      assert (v = it) by congruence. assert (t' = t) by congruence. subst.
      apply (reach_value _ _ _ x s t k it n RI F T V En).
  Qed.

  Lemma read_same path : forall it t, (forall n, enters it t n -> reach src ds sch n) ->
    read new path it t = read src path it t.
  Proof.
    induction path as [|p path IH]; intros it t H; [reflexivity|]. cbn [read]. destruct it as [x| |]; try reflexivity.
    assert (S : schema_of new x t = schema_of src x t /\ forall s, schema_of src x t = Some s -> reach src ds sch (Inst x s)).
    { destruct t as [s|q v|[| | |q]]; cbn [schema_of]; try (split; [reflexivity|intros; discriminate]).
      - split; [reflexivity|]. intros s' E. assert (s' = s) by congruence. subst. apply H. constructor.
      - assert (RO : reach src ds sch (Obj x)) by (apply H; constructor).
        rewrite (e_attr _ _ _ _ X x kSchemaAttr (or_introl (conj eq_refl RO))). split; [reflexivity|].
        intros s E. destruct (value src x kSchemaAttr) as [[s'| |]|] eqn:V; try discriminate.
        assert (s' = s) by congruence. subst. apply (reach_object _ _ _ x s RO V). }
    destruct S as [S1 S2]. rewrite S1. destruct (schema_of src x t) as [s|]; [|reflexivity].
    pose proof (S2 s eq_refl) as RI. rewrite (read_one_same x s p RI).
    destruct (read_one src x s p) as [[it' t']|] eqn:E; [|reflexivity]. apply IH. intros n. apply (read_one_reach x s p it' t' n RI E).
  Qed.
End Reads.
