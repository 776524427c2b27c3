(** What an update does to a state, said without the specification's own helpers. *)
From Coq Require Import String.
From Coq Require Import NArith ZArith List Bool PeanoNat Lia.
From Verif Require Import PathModel PathSpec PathProofs GraphModel GraphSpec
  SliceManagerModel SliceManagerSpec SliceManagerDataProofs SliceManagerProcessProofs
  SliceManagerLoadProofs SliceManagerProofs.
Import ListNotations.
Local Open Scope list_scope.
Local Open Scope nat_scope.

Lemma item_dec (i j : item) : {i = j} + {i <> j}.
Proof. decide equality; apply N.eq_dec. Qed.

Lemma in_objects l o : In o (objects l) <-> In (Some (Obj o)) l.
Proof.
  unfold objects. rewrite in_flat_map. split.
  - intros [i [I J]]. destruct i as [[o'|v]|]; cbn in J; try easy. destruct J as [<-|[]]. exact I.
  - intros I. exists (Some (Obj o)). split; [exact I|now left].
Qed.

Lemma bag_get_app b b' s :
  bag_get (b ++ b') s = match bag_get b s with Some c => Some c | None => bag_get b' s end.
Proof. induction b as [|[t c] b IH]; [reflexivity|]. cbn. destruct (slot_eqb t s); [reflexivity|exact IH]. Qed.

(** The part of the stub that has the new values. *)
Definition new_facts (s : text) (tvs : list (option item * option item)) : bag :=
  flat_map (fun tv => match fst tv with
                      | Some (Obj o) => [((o, FAttr s), CValue (snd tv))]
                      | _ => []
                      end) tvs.

Lemma new_facts_in s tvs t c : In (t, c) (new_facts s tvs) ->
  exists o v, t = (o, FAttr s) /\ c = CValue v /\ In (Some (Obj o), v) tvs.
Proof.
  unfold new_facts. rewrite in_flat_map. intros [[[[o|w]|] v] [I J]]; cbn in J; try easy.
  destruct J as [J|[]]. exists o, v. split; [congruence|]. split; [congruence|exact I].
Qed.

Lemma new_facts_get s : forall tvs i o v, nth_error tvs i = Some (Some (Obj o), v) ->
  (forall j w, i < j -> nth_error tvs j <> Some (Some (Obj o), w)) ->
  bag_get (rev (new_facts s tvs)) (o, FAttr s) = Some (CValue v).
Proof.
  induction tvs as [|[t w] tvs IH]; intros [|i] o v E L; try discriminate.
  - cbn in E. injection E as -> ->. cbn [new_facts flat_map fst snd]. fold (new_facts s tvs).
    rewrite rev_app_distr, bag_get_app. cbn [rev app].
    match goal with |- match ?t with _ => _ end = _ => destruct t as [c|] eqn:G end.
    + exfalso. apply bag_get_in, in_rev, new_facts_in in G as (o' & v' & E & _ & I).
      assert (o' = o) as -> by congruence. apply In_nth_error in I as [j J].
      exact (L (S j) v' ltac:(lia) J).
    + cbn [bag_get]. rewrite (proj2 (slot_eqb_eq (o, FAttr s) (o, FAttr s)) eq_refl). reflexivity.
  - cbn [new_facts flat_map fst snd]. fold (new_facts s tvs). rewrite rev_app_distr, bag_get_app.
    match goal with |- match ?t with _ => _ end = _ =>
      assert (G : t = Some (CValue v)); [|now rewrite G] end.
    apply (IH i o v E). intros j w' J. exact (L (S j) w' ltac:(lia)).
Qed.

Lemma combine_nth {A B} (l : list A) : forall (k : list B) i a b,
  nth_error (combine l k) i = Some (a, b) <-> nth_error l i = Some a /\ nth_error k i = Some b.
Proof.
  induction l as [|x l IH]; intros [|y k] [|i] a b; cbn; try (split; [discriminate|intuition discriminate]).
  - split; [intros E; injection E as -> ->; now split|intros [E F]; congruence].
  - apply IH.
Qed.

Lemma combine_left {A B} (l : list A) : forall (k : list B) a b, In (a, b) (combine l k) -> In a l.
Proof. intros k a b I. exact (in_combine_l _ _ _ _ I). Qed.

Section Effect.
  Variable ty : N -> text.
  Variable struct : text -> option node.
  Variable root : N.
  Variable root_schema : text.
  Variable lx : lexicon.
  Hypothesis RT : ty root = root_schema.
  Variable d : dir.
  Variable revs : list revision.
  Variable b : schema_bag.
  Variable st : state.
  Hypothesis O : rev_ok lx ty struct root_schema d revs b st.

  Lemma flattened_ok : forall p x i y, schema_along (st_child st) x p = Some y -> item_ok ty x i ->
    forall j, In j (flattened (st_data st) p i) -> item_ok ty y j.
  Proof.
    pose proof (ro_typed _ _ _ _ _ _ _ _ O) as T.
    assert (T' : forall o a x c i, st_child st (ty o) a = Some x -> st_data st (o, field_of a) = Some c ->
              In i (items_read a c) -> item_ok ty x i).
    { intros o a x c i CH. rewrite (ro_child _ _ _ _ _ _ _ _ O) in CH. now apply T. }
    assert (NONE : forall x, item_ok ty x None) by (intros [id| | |]; exact I).
    induction p as [|a p IH]; intros x i y SA IO j J.
    { cbn in *. destruct J as [<-|[]]. assert (x = y) as <- by congruence. exact IO. }
    cbn in SA. destruct x as [id| | |]; try discriminate.
    destruct (st_child st id a) as [z|] eqn:CH; [|discriminate].
    assert (ST : forall o, i = Some (Obj o) -> ty o = id) by (intros o ->; exact IO).
    destruct a as [| | |s]; cbn [flattened] in J.
    - apply in_flat_map in J as [k [K J]]. refine (IH z k y SA _ j J).
      unfold keys_of, entries_of in K. destruct i as [[o|w]|]; try easy.
      destruct (st_data st (o, FEntries)) as [[v|l|l]|] eqn:D; try easy.
      apply (T' o DictGetKeys z (CEntries l)); [rewrite (ST o eq_refl)| |]; assumption.
    - apply in_flat_map in J as [k [K J]]. refine (IH z k y SA _ j J).
      unfold values_of, entries_of in K. destruct i as [[o|w]|]; try easy.
      destruct (st_data st (o, FEntries)) as [[v|l|l]|] eqn:D; try easy.
      apply (T' o DictGetValues z (CEntries l)); [rewrite (ST o eq_refl)| |]; assumption.
    - apply in_flat_map in J as [k [K J]]. refine (IH z k y SA _ j J).
      unfold items_of in K. destruct i as [[o|w]|]; try easy.
      destruct (st_data st (o, FItems)) as [[v|l|l]|] eqn:D; try easy.
      apply (T' o ListExplode z (CItems l)); [rewrite (ST o eq_refl)| |]; assumption.
    - refine (IH z _ y SA _ j J). unfold attr_of. destruct i as [[o|w]|]; try apply NONE.
      destruct (st_data st (o, FAttr s)) as [[v|l|l]|] eqn:D; try apply NONE.
      apply (T' o (GetAttr s) z (CValue v)); [rewrite (ST o eq_refl)| |now left]; assumption.
  Qed.

  Variable u : change.
  Variable at_id : text.
  Hypothesis AT : schema_along (st_child st) (SNode root_schema) (u_path u) = Some (SNode at_id).
  Variable st' : state.
  Hypothesis A1 : forall s c, written ty root st u at_id s c ->
    st_data st' s = Some (over (st_data st s) c).
  Hypothesis A2 : forall s, (forall c, ~ written ty root st u at_id s c) ->
    st_data st' s = st_data st s.

  Local Notation targets := (targets_of root st (u_path u)).

  Lemma targets_typed o : In (Some (Obj o)) targets -> ty o = at_id.
  Proof. intros I. exact (flattened_ok (u_path u) _ (Some (Obj root)) _ AT RT _ I). Qed.

  Lemma stub_split : stub_data u targets
    = rev (new_facts (u_attr u) (combine targets (u_values u))) ++ u_data u.
  Proof. reflexivity. Qed.

  Lemma attr_read o : ty o = at_id ->
    exists a x, update_child u at_id (ty o) a = Some x /\ field_of a = FAttr (u_attr u).
  Proof.
    intros E. exists (GetAttr (u_attr u)), (u_schema u). split; [|reflexivity].
    unfold update_child. rewrite E, text_eqb_refl.
    now rewrite (proj2 (action_eqb_eq (GetAttr (u_attr u)) (GetAttr (u_attr u))) eq_refl).
  Qed.

  Lemma new_value i o v :
    nth_error targets i = Some (Some (Obj o)) -> nth_error (u_values u) i = Some v ->
    (forall j, i < j -> nth_error targets j <> Some (Some (Obj o))) ->
    st_data st' (o, FAttr (u_attr u)) = Some (CValue v).
  Proof.
    intros E1 E2 L. pose proof (nth_error_In _ _ E1) as I.
    rewrite (A1 (o, FAttr (u_attr u)) (CValue v)).
    - unfold over. now destruct (st_data st (o, FAttr (u_attr u))) as [[| |]|].
    - split; [constructor; now apply in_objects|]. split.
      + unfold update_data. rewrite stub_split, bag_get_app.
        rewrite (new_facts_get (u_attr u) (combine targets (u_values u)) i o v); [reflexivity| |].
        * apply combine_nth. now split.
        * intros j w J F. apply combine_nth in F as [F _]. exact (L j J F).
      + apply attr_read. now apply targets_typed.
  Qed.

  Lemma data_get s : (forall o, In (Some (Obj o)) targets -> s <> (o, FAttr (u_attr u))) ->
    update_data u targets s = bag_get (u_data u) s.
  Proof.
    intros NT. unfold update_data. rewrite stub_split, bag_get_app.
    destruct (bag_get (rev _) s) as [c|] eqn:G; [|reflexivity]. exfalso.
    apply bag_get_in, in_rev, new_facts_in in G as (o & v & E & _ & I).
    apply combine_left in I. exact (NT o I E).
  Qed.

  Lemma new_data o f c :
    reached ty (update_child u at_id) (update_data u targets) (objects targets) o ->
    (exists a x, update_child u at_id (ty o) a = Some x /\ field_of a = f) ->
    (In (Some (Obj o)) targets -> f <> FAttr (u_attr u)) ->
    In ((o, f), c) (u_data u) -> (forall c', In ((o, f), c') (u_data u) -> c' = c) ->
    st_data st' (o, f) = Some (over (st_data st (o, f)) c).
  Proof.
    intros R F NT I U. apply A1. split; [exact R|]. split; [|exact F].
    rewrite data_get.
    - destruct (in_bag_get _ _ _ I) as [c' G]. rewrite G. f_equal. apply U. now apply bag_get_in.
    - intros o' J E. assert (o' = o) as -> by congruence. apply (NT J). congruence.
  Qed.

  Lemma nothing_else s :
    (forall o, In (Some (Obj o)) targets -> s <> (o, FAttr (u_attr u))) ->
    (forall c, ~ In (s, c) (u_data u)) -> st_data st' s = st_data st s.
  Proof.
    intros NT ND. apply A2. intros c (_ & G & _). unfold update_data in G. fold (update_data u targets s) in G.
    rewrite (data_get s NT) in G. apply bag_get_in in G. exact (ND c G).
  Qed.

  Lemma entries_over o e : content_ok FEntries (CEntries e) ->
    exists l, over (st_data st (o, FEntries)) (CEntries e) = CEntries l
      /\ NoDup (map fst l)
      /\ forall k v, In (k, v) l <-> In (k, v) e \/ ~ In k (map fst e)
                       /\ exists old, st_data st (o, FEntries) = Some (CEntries old) /\ In (k, v) old.
  Proof.
    intros [_ NE]. unfold over.
    destruct (st_data st (o, FEntries)) as [[w|w|old]|] eqn:D.
    - exfalso. exact (ro_content _ _ _ _ _ _ _ _ O _ _ D).
    - exfalso. exact (ro_content _ _ _ _ _ _ _ _ O _ _ D).
    - destruct (ro_content _ _ _ _ _ _ _ _ O _ _ D) as [_ NO].
      exists (put_all old e). split; [reflexivity|]. split; [now apply put_all_nodup|].
      assert (H : forall k v, In (k, v) e -> In (k, v) (put_all old e)) by (intros; now apply put_all_has).
      intros k v. split.
      + intros I. destruct (in_dec item_dec k (map fst e)) as [K|K].
        * left. apply in_map_iff in K as [[k' v'] [E K]]. cbn in E. subst k'.
          pose proof (put_all_nodup e old NO) as ND. pose proof (H k v' K) as J.
          assert (v = v') as ->; [|exact K].
          clear - ND I J. induction (put_all old e) as [|[k1 v1] l IH]; [easy|]. cbn in ND.
          inversion ND as [|? ? N1 N2]; subst. destruct I as [I|I], J as [J|J].
          -- congruence.
          -- exfalso. apply N1. assert (k1 = k) as -> by congruence. apply in_map_iff. now exists (k, v').
          -- exfalso. apply N1. assert (k1 = k) as -> by congruence. apply in_map_iff. now exists (k, v).
          -- now apply IH.
        * destruct (put_all_in _ _ _ _ I) as [J|J]; [|now left]. right. split; [exact K|].
          exists old. now split.
      + intros [I|[K [old' [E I]]]]; [now apply H|]. assert (old' = old) as -> by congruence.
        now apply put_all_keep.
    - exists e. split; [reflexivity|]. split; [exact NE|]. intros k v. split; [now left|].
      intros [I|[_ [old [E _]]]]; [exact I|congruence].
  Qed.
End Effect.

Lemma flattened_attr data s : forall p i,
  flattened data (p ++ [GetAttr s]) i = map (fun j => attr_of data j s) (flattened data p i).
Proof.
  assert (M : forall (f g : option item -> list (option item)) l,
            (forall i, f i = map (fun j => attr_of data j s) (g i)) ->
            flat_map f l = map (fun j => attr_of data j s) (flat_map g l)).
  { intros f g l E. induction l as [|x l IH]; [reflexivity|]. cbn. now rewrite map_app, E, IH. }
  induction p as [|[| | |t] p IH]; intros i; cbn [app flattened]; [reflexivity| | | |apply IH];
    apply M; exact IH.
Qed.

Lemma map_combine_attr (f : option item -> option item) : forall targets values,
  length targets = length values ->
  (forall i t v, nth_error targets i = Some t -> nth_error values i = Some v ->
     f t = match t with Some (Obj _) => v | _ => None end) ->
  map f targets
  = map (fun tv => match fst tv with Some (Obj _) => snd tv | _ => None end) (combine targets values).
Proof.
  induction targets as [|t targets IH]; intros [|v values] L H; try discriminate; [reflexivity|].
  cbn. f_equal; [exact (H 0 t v eq_refl eq_refl)|]. apply IH; [now injection L|].
  intros i. exact (H (S i)).
Qed.

Lemma distinct_targets l : NoDup (objects l) -> forall i j o,
  nth_error l i = Some (Some (Obj o)) -> nth_error l j = Some (Some (Obj o)) -> i = j.
Proof.
  induction l as [|t l IH]; intros N i j o E F; [destruct i; discriminate|].
  assert (NL : NoDup (objects l)).
  { destruct t as [[x|w]|]; try exact N. cbn in N. now inversion N. }
  destruct i as [|i], j as [|j]; [reflexivity| | |f_equal; now apply (IH NL i j o)].
  - cbn in E, F. injection E as ->. cbn in N. inversion N as [|? ? N1 _]; subst. destruct N1.
    apply in_objects. exact (nth_error_In _ _ F).
  - cbn in E, F. injection F as ->. cbn in N. inversion N as [|? ? N1 _]; subst. destruct N1.
    apply in_objects. exact (nth_error_In _ _ E).
Qed.
