(** Layers: what they have in common, and what a write to one of them changes. *)
From Coq Require Import String NArith ZArith List Bool Arith Lia Permutation.
From Verif Require Import ObjectIdModel ObjectIdProofs SchemaModel ItemModel DictModel DictSpec DictProofs
  SourceModel SourceSpec SourceProofs BagModel CollProofs.
From Coq Require Import ZifyBool ZifyN.
Import ListNotations.
Local Open Scope nat_scope.
Notation chain := BagModel.chain.

Lemma a_find_set {K V} dec (m : list (K * V)) k v j : a_find dec (a_set dec m k v) j = if dec k j then Some v else a_find dec m j.
Proof.
  induction m as [|[k' v'] m IH]; cbn.
  - destruct (dec k j); auto.
  - destruct (dec k' k) as [<-|N]; cbn.
    + destruct (dec k' j); auto.
    + destruct (dec k' j) as [<-|]; [destruct (dec k k'); congruence|]. exact IH.
Qed.
Lemma a_find_in {K V} dec (m : list (K * V)) k v : a_find dec m k = Some v -> In (k, v) m.
Proof.
  induction m as [|[k' v'] m IH]; cbn; [easy|]. destruct (dec k' k) as [<-|]; intros E; [injection E as <-; auto|auto].
Qed.
Lemma a_find_none {K V} dec (m : list (K * V)) k : a_find dec m k = None -> ~ In k (map fst m).
Proof.
  induction m as [|[k' v'] m IH]; cbn; [tauto|]. destruct (dec k' k) as [<-|N]; [discriminate|]. intros E [H|H]; [congruence|]. now apply IH.
Qed.

(** ** Positions in a list *)
Lemma put_length h a l : length (put h a l) = length h.
Proof.
  unfold put. rewrite <- (firstn_skipn a h) at 3. rewrite !app_length. destruct (skipn a h); auto.
Qed.
Lemma nth_put h a l b : nth_error (put h a l) b = if b =? a then (match nth_error h a with Some _ => Some l | None => None end) else nth_error h b.
Proof.
  unfold put. revert a b. induction h as [|x h IH]; intros [|a] [|b]; cbn; auto; now destruct (b =? a).
Qed.
Lemma nth_put_same h a l l0 : nth_error h a = Some l0 -> nth_error (put h a l) a = Some l.
Proof. intros E. rewrite nth_put, Nat.eqb_refl, E. reflexivity. Qed.
Lemma nth_put_other h a l b : b <> a -> nth_error (put h a l) b = nth_error h b.
Proof. intros N. rewrite nth_put. destruct (Nat.eqb_spec b a); congruence. Qed.
Lemma nth_put_bag bs b x c : nth_error (put_bag bs b x) c = if c =? b then (match nth_error bs b with Some _ => Some x | None => None end) else nth_error bs c.
Proof.
  unfold put_bag. revert b c. induction bs as [|y bs IH]; intros [|b] [|c]; cbn; auto; now destruct (c =? b).
Qed.
Lemma put_bag_length bs b x : length (put_bag bs b x) = length bs.
Proof.
  unfold put_bag. rewrite <- (firstn_skipn b bs) at 3. rewrite !app_length. destruct (skipn b bs); auto.
Qed.
Lemma nth_app {A} (h : list A) x b l : nth_error h b = Some l -> nth_error (h ++ x) b = Some l.
Proof. intros E. rewrite nth_error_app1; auto. apply nth_error_Some. congruence. Qed.
Lemma nth_last {A} (h : list A) x : nth_error (h ++ [x]) (length h) = Some x.
Proof. rewrite nth_error_app2 by lia. now rewrite Nat.sub_diag. Qed.

Section Bag.
Variable asize : ObjectId -> N.
Hypothesis asize_ok : forall a, (asize a <= capacity a)%N.

(** An id whose object exists *)
Definition valid (o : ObjectId) : Prop :=
  wf o /\ (is_small_alloc o = false -> (offset o < asize (allocation_of o))%N).
Lemma valid_real o : valid o -> is_small_alloc o = false -> real asize (allocation_of o) o.
Proof. intros [W L] S. split; auto. Qed.
Lemma real_valid alloc o : real asize alloc o -> valid o.
Proof. intros (W & <- & L). split; auto. Qed.

(** ** The invariant *)
Definition shared_ok (h : heap) (c : coll) : Prop :=
  match cdense c with
  | Some (CShared b) => exists bl, nth_error h b = Some bl /\ frozen bl = true
  | _ => True
  end.
Definition coll_ok (h : heap) (rest : list (nat * layer)) (k : key) (c : coll) : Prop :=
  good_coll asize h k c /\ is_small_alloc (fst k) = false /\ shared_ok h c /\
  (msparse c = None -> mdense c = None -> cdense c = None -> lookup_parent c = true -> snd (data_sources h rest k) = None).
(** the parents of a layer *)
Definition ups (h : heap) (l : layer) : list (nat * layer) :=
  match parent l with Some p => chain h p | None => [] end.
Definition small_ok (m : smap) : Prop :=
  NoDup (map fst m) /\ forall o v, In (o, v) m -> valid o /\ is_small_alloc o = true.
(** the keys of a dict are distinct, and of types that can be keys *)
Definition good_keys (m : dmap) : Prop := keys_ok m /\ forall k, In k (map fst m) -> unsupported_key (Some k) = false.
Definition layer_ok (h : heap) (a : nat) (l : layer) : Prop :=
  (forall p, parent l = Some p -> p < a /\ exists pl, nth_error h p = Some pl /\ frozen pl = true) /\
  (forall attr m, a_find string_dec (small l) attr = Some m -> small_ok m) /\
  (forall k c, a_find key_dec (big l) k = Some c -> coll_ok h (ups h l) k c) /\
  (forall alloc v, a_find oid_eq_dec (lists l) alloc = Some v -> is_allocation alloc /\ lv_size v = capacity alloc) /\
  (forall alloc v, a_find oid_eq_dec (dicts l) alloc = Some v -> is_allocation alloc /\ forall i, good_keys (od_data (v i))).
Definition heap_ok (h : heap) : Prop := forall a l, nth_error h a = Some l -> layer_ok h a l.

Lemma heap_ok_parent h a l p : heap_ok h -> nth_error h a = Some l -> parent l = Some p ->
  p < a /\ exists pl, nth_error h p = Some pl /\ frozen pl = true.
Proof. intros H E P. exact (proj1 (H a l E) p P). Qed.

Lemma chain_from_fuel h : heap_ok h -> forall a fuel, a <= fuel -> chain_from h fuel a = chain_from h a a.
Proof.
  intros H a. induction a as [a IH] using lt_wf_ind. intros fuel L.
  destruct (nth_error h a) as [l|] eqn:E.
  - destruct (parent l) as [p|] eqn:P.
    + destruct (heap_ok_parent h a l p H E P) as [Lp _].
      destruct fuel as [|f]; [lia|]. destruct a as [|a']; [lia|].
      cbn [chain_from]. rewrite E, P. f_equal. rewrite (IH p Lp f) by lia. rewrite (IH p Lp a') by lia. reflexivity.
    + destruct fuel, a; cbn [chain_from]; rewrite E; try rewrite P; reflexivity.
  - destruct fuel, a; cbn [chain_from]; rewrite E; reflexivity.
Qed.
Lemma chain_unfold h a l : heap_ok h -> nth_error h a = Some l -> chain h a = (a, l) :: ups h l.
Proof.
  intros H E. unfold chain, ups. destruct (parent l) as [p|] eqn:P.
  - destruct (heap_ok_parent h a l p H E P) as [Lp _]. destruct a as [|a']; [lia|].
    cbn [chain_from]. rewrite E, P. f_equal. apply chain_from_fuel; auto; lia.
  - destruct a; cbn [chain_from]; rewrite E; try rewrite P; reflexivity.
Qed.
Lemma parents_ups h a l : heap_ok h -> nth_error h a = Some l -> parents h a = ups h l.
Proof. intros H E. unfold parents. now rewrite (chain_unfold h a l). Qed.

(** everything in a chain is a layer of the heap, and ok; all but the first frozen *)
Lemma chain_in h : heap_ok h -> forall a x l, In (x, l) (chain h a) -> nth_error h x = Some l /\ x <= a /\ (x < a -> frozen l = true).
Proof.
  intros H a. induction a as [a IH] using lt_wf_ind. intros x l I.
  destruct (nth_error h a) as [la|] eqn:E.
  - rewrite (chain_unfold h a la H E) in I. destruct I as [I|I].
    + injection I as <- <-. split; auto. split; [lia|lia].
    + unfold ups in I. destruct (parent la) as [p|] eqn:P; [|easy].
      destruct (heap_ok_parent h a la p H E P) as (Lp & pl & Ep & F).
      destruct (IH p Lp x l I) as (Ex & Lx & Fx). split; [auto|]. split; [lia|]. intros _.
      destruct (Nat.eq_dec x p) as [->|N]; [congruence|]. apply Fx. lia.
  - unfold chain in I. destruct a; cbn [chain_from] in I; now rewrite E in I.
Qed.
Lemma ups_in h a l : heap_ok h -> layer_ok h a l -> forall x lx, In (x, lx) (ups h l) -> nth_error h x = Some lx /\ x < a /\ frozen lx = true.
Proof.
  intros H L x lx I. unfold ups in I. destruct (parent l) as [p|] eqn:P; [|easy].
  destruct (proj1 L p P) as (Lp & pl & Ep & F). destruct (chain_in h H p x lx I) as (E & Lx & Fx).
  split; [auto|]. split; [lia|]. destruct (Nat.eq_dec x p) as [->|N]; [congruence|]. apply Fx. lia.
Qed.
Lemma chain_addrs h : heap_ok h -> forall a, NoDup (map fst (chain h a)).
Proof.
  intros H a. induction a as [a IH] using lt_wf_ind.
  destruct (nth_error h a) as [la|] eqn:E.
  - rewrite (chain_unfold h a la H E). cbn. constructor.
    + intros I. apply in_map_iff in I as ([x lx] & Ex & I). cbn in Ex. subst x.
      destruct (ups_in h a la H (H a la E) a lx I). lia.
    + unfold ups. destruct (parent la) as [p|] eqn:P; [|constructor].
      apply IH. exact (proj1 (heap_ok_parent h a la p H E P)).
  - unfold chain. destruct a; cbn [chain_from]; rewrite E; constructor.
Qed.
Lemma heap_good_ch h a : heap_ok h -> good_ch asize h (chain h a).
Proof.
  intros H x l k c I F. destruct (chain_in h H a x l I) as (E & _ & _).
  destruct (H x l E) as (_ & _ & B & _). exact (proj1 (B k c F)).
Qed.
Lemma ups_good_ch h a l : heap_ok h -> layer_ok h a l -> good_ch asize h (ups h l).
Proof.
  intros H L x lx k c I F. destruct (ups_in h a l H L x lx I) as (E & _ & _).
  destruct (H x lx E) as (_ & _ & B & _). exact (proj1 (B k c F)).
Qed.

(** ** Frozen layers do not change *)
Definition ext (h h' : heap) : Prop :=
  forall x l, nth_error h x = Some l -> frozen l = true -> nth_error h' x = Some l.
Lemma ext_refl h : ext h h.
Proof. intros x l E _. exact E. Qed.
Lemma ext_trans h1 h2 h3 : ext h1 h2 -> ext h2 h3 -> ext h1 h3.
Proof. intros A B x l E F. auto. Qed.
Lemma ext_put h a l l' : nth_error h a = Some l -> frozen l = false -> ext h (put h a l').
Proof. intros E F x lx Ex Fx. rewrite nth_put_other; auto. intros ->. congruence. Qed.
Lemma ext_app h x : ext h (h ++ x).
Proof. intros y l E _. now apply nth_app. Qed.
Definition data_eq (l l' : layer) : Prop :=
  parent l = parent l' /\ small l = small l' /\ big l = big l' /\ lists l = lists l' /\ dicts l = dicts l'.
Lemma nth_freeze h a b : nth_error (freeze h a) b = if b =? a then
   match nth_error h a with Some l => Some (mkLayer true (parent l) (small l) (big l) (lists l) (dicts l)) | None => None end
   else nth_error h b.
Proof.
  unfold freeze. destruct (nth_error h a) as [l|] eqn:E.
  - rewrite nth_put, E. reflexivity.
  - destruct (Nat.eqb_spec b a); congruence.
Qed.
Lemma ext_freeze h a : ext h (freeze h a).
Proof.
  intros x l E F. rewrite nth_freeze. destruct (Nat.eqb_spec x a) as [->|]; auto.
  rewrite E. destruct l; cbn in *. now subst.
Qed.

Lemma ext_chain h h' : heap_ok h -> ext h h' -> (forall a l p, nth_error h' a = Some l -> parent l = Some p -> p < a) ->
  forall p pl, nth_error h p = Some pl -> frozen pl = true -> chain h' p = chain h p.
Proof.
  intros H X D p. induction p as [p IH] using lt_wf_ind. intros pl E F.
  assert (E' := X p pl E F).
  assert (CU : chain h' p = (p, pl) :: match parent pl with Some q => chain h' q | None => [] end).
  { clear -D E'. unfold chain. destruct (parent pl) as [q|] eqn:Q.
    - assert (Lq := D p pl q E' Q). destruct p as [|p']; [lia|]. cbn [chain_from]. rewrite E', Q. f_equal.
      assert (G : forall a fuel, a <= fuel -> chain_from h' fuel a = chain_from h' a a).
      { clear -D. intros a. induction a as [a IH] using lt_wf_ind. intros fuel L. destruct (nth_error h' a) as [l|] eqn:E.
        - destruct (parent l) as [p|] eqn:P.
          + assert (Lp := D a l p E P). destruct fuel as [|f]; [lia|]. destruct a as [|a']; [lia|].
            cbn [chain_from]. rewrite E, P. f_equal. rewrite (IH p Lp f) by lia. rewrite (IH p Lp a') by lia. reflexivity.
          + destruct fuel, a; cbn [chain_from]; rewrite E; try rewrite P; reflexivity.
        - destruct fuel, a; cbn [chain_from]; rewrite E; reflexivity. }
      apply G; lia.
    - destruct p; cbn [chain_from]; rewrite E'; try rewrite Q; reflexivity. }
  rewrite CU, (chain_unfold h p pl H E). f_equal. unfold ups. destruct (parent pl) as [q|] eqn:Q; auto.
  destruct (heap_ok_parent h p pl q H E Q) as (Lq & ql & Eq & Fq). exact (IH q Lq ql Eq Fq).
Qed.
Definition down (h : heap) : Prop := forall a l p, nth_error h a = Some l -> parent l = Some p -> p < a.
Lemma heap_ok_down h : heap_ok h -> down h.
Proof. intros H a l p E P. exact (proj1 (heap_ok_parent h a l p H E P)). Qed.
Lemma ext_ups h h' a l : heap_ok h -> ext h h' -> down h' -> layer_ok h a l -> ups h' l = ups h l.
Proof.
  intros H X D L. unfold ups. destruct (parent l) as [p|] eqn:P; auto.
  destruct (proj1 L p P) as (Lp & pl & E & F). exact (ext_chain h h' H X D p pl E F).
Qed.
Lemma ext_cd h h' k c : shared_ok h c -> ext h h' -> cd_of h' k c = cd_of h k c.
Proof.
  unfold cd_of, shared_ok. destruct (cdense c) as [[d|b]|]; auto. intros (bl & E & F) X. now rewrite E, (X b bl E F).
Qed.
Definition ch_ok (h : heap) (ch : list (nat * layer)) : Prop :=
  forall x l k c, In (x, l) ch -> a_find key_dec (big l) k = Some c -> shared_ok h c.
Lemma ch_ok_tl h x ch : ch_ok h (x :: ch) -> ch_ok h ch.
Proof. intros G y l k c I. apply (G y l k c). now right. Qed.
Lemma chain_ch_ok h a : heap_ok h -> ch_ok h (chain h a).
Proof.
  intros H x l k c I F. destruct (chain_in h H a x l I) as (E & _ & _).
  destruct (H x l E) as (_ & _ & B & _). apply (B k c F).
Qed.
Lemma ups_ch_ok h a l : heap_ok h -> layer_ok h a l -> ch_ok h (ups h l).
Proof.
  intros H L x lx k c I F. destruct (ups_in h a l H L x lx I) as (E & _ & _).
  destruct (H x lx E) as (_ & _ & B & _). apply (B k c F).
Qed.
Lemma ext_sources h h' ch k : ch_ok h ch -> ext h h' -> data_sources h' ch k = data_sources h ch k.
Proof.
  intros G X. induction ch as [|[x l] ch IH]; cbn; auto. rewrite (IH (ch_ok_tl _ _ _ G)).
  destruct (a_find key_dec (big l) k) as [c|] eqn:F; auto. rewrite (ext_cd h h' k c); auto. apply (G x l k c); auto. now left.
Qed.
Lemma ext_look_big h h' ch k o : ch_ok h ch -> ext h h' -> look_big h' ch k o = look_big h ch k o.
Proof.
  intros G X. induction ch as [|[x l] ch IH]; cbn; auto. rewrite (IH (ch_ok_tl _ _ _ G)).
  destruct (a_find key_dec (big l) k) as [c|] eqn:F; auto. rewrite (ext_cd h h' k c); auto. apply (G x l k c); auto. now left.
Qed.
Lemma ext_good_coll h h' k c : shared_ok h c -> ext h h' -> good_coll asize h k c -> good_coll asize h' k c.
Proof.
  intros S X (A & B & C & D). split; [auto|]. split; [auto|]. split; [auto|]. destruct (cdense c) eqn:E; auto.
  rewrite (ext_cd h h' k c); auto.
Qed.
Lemma ext_coll_ok h h' rest k c : ch_ok h rest -> ext h h' -> coll_ok h rest k c -> coll_ok h' rest k c.
Proof.
  intros G X (A & B & C & D). split; [eapply ext_good_coll; eauto|]. split; [auto|]. split.
  - unfold shared_ok in *. destruct (cdense c) as [[d|b]|]; auto. destruct C as (bl & E & F). exists bl. auto.
  - intros. rewrite (ext_sources h h'); auto.
Qed.
Lemma ext_layer_ok h h' a l : heap_ok h -> ext h h' -> down h' -> layer_ok h a l -> layer_ok h' a l.
Proof.
  intros H X D L. assert (U := ext_ups h h' a l H X D L). assert (C := ups_ch_ok h a l H L).
  destruct L as (P & S & B & Li & Di). split; [|split; [auto|split; [|auto]]].
  - intros p E. destruct (P p E) as (Lp & pl & Ep & F). split; auto. exists pl. auto.
  - intros k c F. rewrite U. eapply ext_coll_ok; eauto.
Qed.

(** a write to a layer that is not frozen *)
Lemma put_heap_ok h a l l' : heap_ok h -> nth_error h a = Some l -> frozen l = false ->
  layer_ok h a l' -> heap_ok (put h a l').
Proof.
  intros H E F L' b lb Eb. assert (D : down (put h a l')).
  { intros x lx p Ex P. rewrite nth_put in Ex. destruct (Nat.eqb_spec x a) as [->|N].
    - rewrite E in Ex. injection Ex as <-. exact (proj1 (proj1 L' p P)).
    - exact (heap_ok_down h H x lx p Ex P). }
  rewrite nth_put in Eb. destruct (Nat.eqb_spec b a) as [->|N].
  - rewrite E in Eb. injection Eb as <-. apply (ext_layer_ok h); auto. eapply ext_put; eauto.
  - apply (ext_layer_ok h); auto. eapply ext_put; eauto.
Qed.
Lemma app_heap_ok h l : heap_ok h -> layer_ok h (length h) l -> heap_ok (h ++ [l]).
Proof.
  intros H L. assert (D : down (h ++ [l])).
  { intros x lx p Ex P. destruct (Nat.lt_ge_cases x (length h)) as [Lt|G].
    - rewrite nth_error_app1 in Ex by auto. exact (heap_ok_down h H x lx p Ex P).
    - assert (x = length h).
      { assert (x < length (h ++ [l])) by (apply nth_error_Some; congruence). rewrite app_length in *. cbn in *. lia. }
      subst x. rewrite nth_last in Ex. injection Ex as <-. exact (proj1 (proj1 L p P)). }
  intros b lb Eb. destruct (Nat.lt_ge_cases b (length h)) as [Lt|G].
  - rewrite nth_error_app1 in Eb by auto. apply (ext_layer_ok h); auto. apply ext_app.
  - assert (b = length h).
    { assert (b < length (h ++ [l])) by (apply nth_error_Some; congruence). rewrite app_length in *. cbn in *. lia. }
    subst b. rewrite nth_last in Eb. injection Eb as <-. apply (ext_layer_ok h); auto. apply ext_app.
Qed.
Lemma data_eq_layer_ok h a l l' : data_eq l l' -> layer_ok h a l -> layer_ok h a l'.
Proof.
  intros (E1 & E2 & E3 & E4 & E5) (P & S & B & Li & Di).
  assert (ups h l' = ups h l) by (unfold ups; now rewrite E1).
  split; [intros p Q; rewrite <- E1 in Q; auto|]. split; [intros at_ m Q; rewrite <- E2 in Q; eauto|].
  split; [intros k c Q; rewrite H; rewrite <- E3 in Q; auto|].
  split; [intros al v Q; rewrite <- E4 in Q; auto|intros al v Q; rewrite <- E5 in Q; auto].
Qed.
Lemma freeze_heap_ok h a : heap_ok h -> heap_ok (freeze h a).
Proof.
  intros H. assert (D : down (freeze h a)).
  { intros x lx p Ex P. rewrite nth_freeze in Ex. destruct (Nat.eqb_spec x a) as [->|N]; [|exact (heap_ok_down h H x lx p Ex P)].
    destruct (nth_error h a) as [l|] eqn:E; [|easy]. injection Ex as <-. exact (heap_ok_down h H a l p E P). }
  intros b lb Eb. rewrite nth_freeze in Eb. destruct (Nat.eqb_spec b a) as [->|N].
  - destruct (nth_error h a) as [l|] eqn:E; [|easy]. injection Eb as <-. apply (ext_layer_ok h); auto; [apply ext_freeze|].
    eapply data_eq_layer_ok; [|exact (H a l E)]. unfold data_eq. auto.
  - apply (ext_layer_ok h); auto. apply ext_freeze.
Qed.

(** ** What a layer contains *)
Definition attr_in (h : heap) (ch : list (nat * layer)) (attr : string) (o : ObjectId) : option ditem :=
  if is_small_alloc o then look_small ch attr o else look_big h ch (allocation_of o, attr) o.
Lemma look_attr_in h a attr o : look_attr h a attr o = attr_in h (chain h a) attr o.
Proof. reflexivity. Qed.
Definition list_in (ch : list (nat * layer)) (o : ObjectId) : option (list ditem) :=
  look_list ch (allocation_of o) (offset o).
Definition dict_in (ch : list (nat * layer)) (o : ObjectId) (k : value) : option ditem :=
  match look_dict ch (allocation_of o) (offset o) with Some d => d_get d k | None => None end.

(** Chains that have the same layers except that the first may be frozen or not *)
Definition ch_sim (ch ch' : list (nat * layer)) : Prop :=
  match ch, ch' with
  | [], [] => True
  | (x, l) :: r, (x', l') :: r' => x = x' /\ data_eq l l' /\ r = r'
  | _, _ => False
  end.
Lemma sim_attr h ch ch' attr o : ch_sim ch ch' -> attr_in h ch' attr o = attr_in h ch attr o.
Proof.
  destruct ch as [|[x l] r], ch' as [|[x' l'] r']; cbn; try tauto. intros (<- & (E1 & E2 & E3 & E4 & E5) & <-).
  unfold attr_in. cbn. now rewrite E2, E3.
Qed.
Lemma sim_list ch ch' o : ch_sim ch ch' -> list_in ch' o = list_in ch o.
Proof.
  destruct ch as [|[x l] r], ch' as [|[x' l'] r']; cbn; try tauto. intros (<- & (E1 & E2 & E3 & E4 & E5) & <-).
  unfold list_in. cbn. now rewrite E4.
Qed.
Lemma sim_dict ch ch' o k : ch_sim ch ch' -> dict_in ch' o k = dict_in ch o k.
Proof.
  destruct ch as [|[x l] r], ch' as [|[x' l'] r']; cbn; try tauto. intros (<- & (E1 & E2 & E3 & E4 & E5) & <-).
  unfold dict_in. cbn. now rewrite E5.
Qed.
(** the layer at [a] keeps its data *)
Definition keeps (h h' : heap) (a : nat) : Prop :=
  exists l l', nth_error h a = Some l /\ nth_error h' a = Some l' /\ data_eq l l'.
Lemma keeps_chain h h' a : heap_ok h -> heap_ok h' -> ext h h' -> keeps h h' a -> ch_sim (chain h a) (chain h' a).
Proof.
  intros H H' X (l & l' & E & E' & D). rewrite (chain_unfold h a l H E), (chain_unfold h' a l' H' E'). cbn.
  split; [auto|]. split; [auto|]. destruct D as (P & _). replace (ups h' l') with (ups h' l) by (unfold ups; now rewrite P).
  symmetry. eapply ext_ups; eauto. now apply heap_ok_down.
Qed.
Lemma keeps_attr h h' a attr o : heap_ok h -> heap_ok h' -> ext h h' -> keeps h h' a ->
  attr_in h' (chain h' a) attr o = attr_in h (chain h a) attr o.
Proof.
  intros H H' X K. rewrite (sim_attr h' _ _ attr o (keeps_chain h h' a H H' X K)).
  unfold attr_in. destruct (is_small_alloc o); auto. apply ext_look_big; auto. now apply chain_ch_ok.
Qed.
Lemma keeps_list h h' a o : heap_ok h -> heap_ok h' -> ext h h' -> keeps h h' a ->
  list_in (chain h' a) o = list_in (chain h a) o.
Proof. intros H H' X K. exact (sim_list _ _ o (keeps_chain h h' a H H' X K)). Qed.
Lemma keeps_dict h h' a o k : heap_ok h -> heap_ok h' -> ext h h' -> keeps h h' a ->
  dict_in (chain h' a) o k = dict_in (chain h a) o k.
Proof. intros H H' X K. exact (sim_dict _ _ o k (keeps_chain h h' a H H' X K)). Qed.

(** a new layer without data has the content of its parent *)
Lemma fork_layer_ok h a l : heap_ok h -> nth_error h a = Some l -> frozen l = true -> forall x, a < x ->
  layer_ok h x (mkLayer false (if is_pristine l then parent l else Some a) [] [] [] []).
Proof.
  intros H E F x L. split; [|cbn; split; [easy|split; [easy|split; easy]]]. cbn. intros p P.
  destruct (is_pristine l).
  - destruct (heap_ok_parent h a l p H E P) as (Lp & X). split; [lia|auto].
  - injection P as <-. split; [lia|]. eauto.
Qed.
Lemma pristine_nil l : is_pristine l = true -> small l = [] /\ big l = [] /\ lists l = [] /\ dicts l = [].
Proof. unfold is_pristine. destruct (small l), (big l), (lists l), (dicts l); easy. Qed.
Lemma pristine_attr h x l r attr o : is_pristine l = true -> attr_in h ((x, l) :: r) attr o = attr_in h r attr o.
Proof. intros P. destruct (pristine_nil l P) as (A & B & _). unfold attr_in. cbn. now rewrite A, B. Qed.
Lemma pristine_list x l r o : is_pristine l = true -> list_in ((x, l) :: r) o = list_in r o.
Proof. intros P. destruct (pristine_nil l P) as (A & B & C & D). unfold list_in. cbn. now rewrite C. Qed.
Lemma pristine_dict x l r o k : is_pristine l = true -> dict_in ((x, l) :: r) o k = dict_in r o k.
Proof. intros P. destruct (pristine_nil l P) as (A & B & C & D). unfold dict_in. cbn. now rewrite D. Qed.

Lemma new_layer_chain h a l x fl : heap_ok h -> nth_error h a = Some l ->
  parent fl = (if is_pristine l then parent l else Some a) -> is_pristine fl = true ->
  let ch := (x, fl) :: ups h fl in
  (forall attr o, attr_in h ch attr o = attr_in h (chain h a) attr o) /\
  (forall o, list_in ch o = list_in (chain h a) o) /\
  (forall o k, dict_in ch o k = dict_in (chain h a) o k).
Proof.
  intros H E P Pf ch. unfold ch. rewrite (chain_unfold h a l H E).
  destruct (is_pristine l) eqn:Pl.
  - assert (U : ups h fl = ups h l) by (unfold ups; now rewrite P).
    split; [intros; now rewrite !pristine_attr, U|]. split; [intros; now rewrite !pristine_list, U|intros; now rewrite !pristine_dict, U].
  - assert (U : ups h fl = (a, l) :: ups h l) by (unfold ups at 1; rewrite P; now apply chain_unfold).
    split; [intros; now rewrite pristine_attr, U|]. split; [intros; now rewrite pristine_list, U|intros; now rewrite pristine_dict, U].
Qed.
End Bag.
