(** Facts about bags of data and bags of schemas for SliceManagerProps.v. *)
From Coq Require Import String.
From Coq Require Import NArith ZArith List Bool PeanoNat Lia.
From Verif Require Import PathModel PathSpec PathProofs PathGenProofs GraphModel
  GraphSpec GraphProofs SliceManagerModel SliceManagerSpec.
Import ListNotations.
Local Open Scope list_scope.
Local Open Scope nat_scope.

Lemma item_eqb_eq i j : item_eqb i j = true <-> i = j.
Proof.
  destruct i as [a|a], j as [b|b]; cbn; split; intros H; try discriminate;
    try (apply N.eqb_eq in H; now subst); injection H as ->; apply N.eqb_refl.
Qed.

Lemma field_eqb_eq f g : field_eqb f g = true <-> f = g.
Proof.
  destruct f as [s| |], g as [t| |]; cbn; split; intros H; try discriminate; try reflexivity.
  - apply text_eqb_eq in H. now subst.
  - injection H as ->. apply text_eqb_refl.
Qed.

Lemma slot_eqb_eq s t : slot_eqb s t = true <-> s = t.
Proof.
  destruct s as [o f], t as [o' f']. unfold slot_eqb. cbn [fst snd].
  rewrite andb_true_iff, N.eqb_eq, field_eqb_eq. split.
  - now intros [-> ->].
  - intros E; injection E as -> ->. now split.
Qed.

Lemma action_eqb_eq a b : action_eqb a b = true <-> a = b.
Proof.
  destruct a, b; cbn; split; intros H; try discriminate; try reflexivity.
  - apply text_eqb_eq in H. now subst.
  - injection H as ->. apply text_eqb_refl.
Qed.

Lemma bag_get_in b s c : bag_get b s = Some c -> In (s, c) b.
Proof.
  induction b as [|[t d] b IH]; cbn; [discriminate|].
  destruct (slot_eqb t s) eqn:E.
  - intros H. apply slot_eqb_eq in E. left. congruence.
  - intros H. right. now apply IH.
Qed.

Lemma in_bag_get b s c : In (s, c) b -> exists c', bag_get b s = Some c'.
Proof.
  induction b as [|[t d] b IH]; cbn; [easy|].
  destruct (slot_eqb t s) eqn:E; [intros _; now exists d|].
  intros [H|H]; [|now apply IH].
  assert (t = s) by congruence. apply slot_eqb_eq in H0. congruence.
Qed.

(** * Entries of dicts *)

Lemma put_noop d k v : NoDup (map fst d) -> In (k, v) d -> put d k v = d.
Proof.
  induction d as [|[k' v'] d IH]; cbn; [easy|]. intros N [H|H].
  - injection H as -> ->. now rewrite (proj2 (item_eqb_eq k k) eq_refl).
  - inversion N as [|? ? N1 N2]; subst.
    destruct (item_eqb k' k) eqn:E.
    + apply item_eqb_eq in E. subst k'. exfalso. apply N1.
      apply in_map_iff. now exists (k, v).
    + f_equal. now apply IH.
Qed.

Lemma put_keys d k v k' : In k' (map fst (put d k v)) <-> k' = k \/ In k' (map fst d).
Proof.
  induction d as [|[k0 v0] d IH]; cbn; [intuition congruence|].
  destruct (item_eqb k0 k) eqn:E; cbn.
  - apply item_eqb_eq in E. subst. intuition congruence.
  - rewrite IH. intuition congruence.
Qed.

Lemma put_nodup d k v : NoDup (map fst d) -> NoDup (map fst (put d k v)).
Proof.
  induction d as [|[k0 v0] d IH]; cbn; intros N.
  - constructor; [easy|constructor].
  - inversion N as [|? ? N1 N2]; subst. destruct (item_eqb k0 k) eqn:E; cbn.
    + now constructor.
    + constructor; [|now apply IH]. rewrite put_keys. intros [->|H]; [|easy].
      now rewrite (proj2 (item_eqb_eq k k) eq_refl) in E.
Qed.

Lemma put_in d k v k' v' :
  In (k', v') (put d k v) -> (k' = k /\ v' = v) \/ In (k', v') d.
Proof.
  induction d as [|[k0 v0] d IH]; cbn.
  - intros [H|[]]. left. split; congruence.
  - destruct (item_eqb k0 k) eqn:E; cbn.
    + apply item_eqb_eq in E. intros [H|H]; [left; split; congruence|now right; right].
    + intros [H|H]; [now right; left|]. destruct (IH H) as [|]; [now left|now right; right].
Qed.

Lemma put_in_self d k v : NoDup (map fst d) -> In (k, v) (put d k v).
Proof.
  induction d as [|[k0 v0] d IH]; cbn; [now left|]. intros N.
  inversion N; subst. destruct (item_eqb k0 k) eqn:E; cbn.
  - apply item_eqb_eq in E. left. congruence.
  - right. now apply IH.
Qed.

Lemma put_in_other d k v k' v' : k' <> k -> In (k', v') d -> In (k', v') (put d k v).
Proof.
  intros D. induction d as [|[k0 v0] d IH]; cbn; [easy|].
  destruct (item_eqb k0 k) eqn:E; cbn.
  - apply item_eqb_eq in E. intros [H|H]; [|now right]. exfalso. apply D. congruence.
  - intros [H|H]; [now left|]. right. now apply IH.
Qed.

Lemma put_all_cons d k v e : put_all d ((k, v) :: e) = put_all (put d k v) e.
Proof. reflexivity. Qed.

Lemma put_all_nodup e : forall d, NoDup (map fst d) -> NoDup (map fst (put_all d e)).
Proof.
  induction e as [|[k v] e IH]; intros d N; [exact N|].
  rewrite put_all_cons. apply IH. now apply put_nodup.
Qed.

Lemma put_all_keep e : forall d k v,
  ~ In k (map fst e) -> In (k, v) d -> In (k, v) (put_all d e).
Proof.
  induction e as [|[k0 v0] e IH]; intros d k v D I; [exact I|].
  rewrite put_all_cons. apply IH; [intros H; apply D; now right|].
  apply put_in_other; [|exact I]. intros ->. apply D. now left.
Qed.

Lemma put_all_has e : forall d, NoDup (map fst d) -> NoDup (map fst e) ->
  forall k v, In (k, v) e -> In (k, v) (put_all d e).
Proof.
  induction e as [|[k0 v0] e IH]; intros d N M k v I; [easy|].
  inversion M as [|? ? M1 M2]; subst. rewrite put_all_cons. destruct I as [I|I].
  - injection I as <- <-. apply put_all_keep; [exact M1|]. now apply put_in_self.
  - apply IH; try easy. now apply put_nodup.
Qed.

Lemma put_all_noop e : forall d, NoDup (map fst d) ->
  (forall k v, In (k, v) e -> In (k, v) d) -> put_all d e = d.
Proof.
  induction e as [|[k v] e IH]; intros d N H; [reflexivity|].
  rewrite put_all_cons, (put_noop d k v N); [|apply H; now left].
  apply IH; [exact N|]. intros k' v' I. apply H. now right.
Qed.

Lemma put_all_in e : forall d k v, In (k, v) (put_all d e) -> In (k, v) d \/ In (k, v) e.
Proof.
  induction e as [|[k0 v0] e IH]; intros d k v I; [now left|].
  rewrite put_all_cons in I. destruct (IH _ _ _ I) as [H|H]; [|now right; right].
  destruct (put_in _ _ _ _ _ H) as [[-> ->]|K]; [right; now left|now left].
Qed.

Lemma put_all_twice d e : NoDup (map fst d) -> NoDup (map fst e) ->
  put_all (put_all d e) e = put_all d e.
Proof.
  intros N M. apply put_all_noop; [now apply put_all_nodup|].
  intros k v I. now apply put_all_has.
Qed.

(** Contents that can stand in some field. *)
Definition content_wf (c : content) : Prop :=
  match c with CEntries l => NoDup (map fst l) | _ => True end.
Definition content_wf_opt (c : option content) : Prop :=
  match c with Some c => content_wf c | None => True end.

Lemma over_wf old c : content_wf_opt old -> content_wf c -> content_wf (over old c).
Proof.
  destruct old as [[v|l|d]|], c as [v'|l'|e]; cbn; try easy. intros N M.
  now apply put_all_nodup.
Qed.

Lemma over_twice old c : content_wf_opt old -> content_wf c ->
  over (Some (over old c)) c = over old c.
Proof.
  destruct old as [[v|l|d]|], c as [v'|l'|e]; cbn; try easy.
  - intros N M. f_equal. apply put_all_noop; [exact M|easy].
  - intros N M. f_equal. apply put_all_noop; [exact M|easy].
  - intros N M. f_equal. now apply put_all_twice.
  - intros N M. f_equal. apply put_all_noop; [exact M|easy].
Qed.

(** * Composition of bags *)

Definition over_bag (s : slot) (acc : option content) (b : bag) : option content :=
  match bag_get b s with Some c => Some (over acc c) | None => acc end.

Lemma composed_fold bags s : composed bags s = fold_left (over_bag s) bags None.
Proof. reflexivity. Qed.

Lemma composed_app l k s :
  composed (l ++ k) s = fold_left (over_bag s) k (composed l s).
Proof. rewrite !composed_fold. apply fold_left_app. Qed.

Lemma fold_absent k s acc :
  (forall b, In b k -> bag_get b s = None) -> fold_left (over_bag s) k acc = acc.
Proof.
  revert acc. induction k as [|b k IH]; intros acc H; [reflexivity|]. cbn [fold_left].
  unfold over_bag at 2. rewrite (H b) by now left. apply IH.
  intros b' I. apply H. now right.
Qed.

Lemma fold_same k s c acc :
  content_wf_opt acc -> content_wf c ->
  (forall b c', In b k -> bag_get b s = Some c' -> c' = c) ->
  (exists b, In b k /\ bag_get b s <> None) ->
  fold_left (over_bag s) k acc = Some (over acc c).
Proof.
  intros A C. revert acc A. induction k as [|b k IH]; intros acc A H [b0 [I0 G0]]; [easy|].
  cbn [fold_left]. unfold over_bag at 2. destruct (bag_get b s) as [c'|] eqn:G.
  - assert (c' = c) by (apply (H b c'); [now left|exact G]). subst c'.
    assert (Q : forall l acc, content_wf_opt acc ->
              (forall b c', In b l -> bag_get b s = Some c' -> c' = c) ->
              fold_left (over_bag s) l (Some (over acc c)) = Some (over acc c)).
    { clear -C. induction l as [|b l IH]; intros acc A H; [reflexivity|]. cbn [fold_left].
      unfold over_bag at 2. destruct (bag_get b s) as [c'|] eqn:G.
      - assert (c' = c) by (apply (H b c'); [now left|exact G]). subst c'.
        rewrite over_twice by assumption. apply IH; [exact A|].
        intros b' c' I. apply H. now right.
      - apply IH; [exact A|]. intros b' c' I. apply H. now right. }
    apply Q; [exact A|]. intros b' c' I. apply H. now right.
  - apply IH; [exact A| |].
    + intros b' c' I. apply H. now right.
    + destruct I0 as [->|I0]; [congruence|]. now exists b0.
Qed.

(** * Schemas *)

Lemma attr_put attrs s x t :
  attr_schema (put_attr attrs s x) t
  = if text_eqb s t then Some x else attr_schema attrs t.
Proof.
  induction attrs as [|[u y] attrs IH]; cbn.
  - reflexivity.
  - destruct (text_eqb u s) eqn:E; cbn.
    + apply text_eqb_eq in E. subst u. now destruct (text_eqb s t).
    + destruct (text_eqb u t) eqn:F; [|exact IH].
      apply text_eqb_eq in F. subst u. destruct (text_eqb s t) eqn:G; [|reflexivity].
      apply text_eqb_eq in G. subst t. now rewrite text_eqb_refl in E.
Qed.

Lemma put_attr_keys attrs s x t :
  In t (map fst (put_attr attrs s x)) <-> t = s \/ In t (map fst attrs).
Proof.
  induction attrs as [|[u y] attrs IH]; cbn; [intuition congruence|].
  destruct (text_eqb u s) eqn:E; cbn.
  - apply text_eqb_eq in E. subst. intuition congruence.
  - rewrite IH. intuition congruence.
Qed.

Lemma put_attr_nodup attrs s x :
  NoDup (map fst attrs) -> NoDup (map fst (put_attr attrs s x)).
Proof.
  induction attrs as [|[u y] attrs IH]; cbn; intros N.
  - constructor; [easy|constructor].
  - inversion N as [|? ? N1 N2]; subst. destruct (text_eqb u s) eqn:E; cbn.
    + now constructor.
    + constructor; [|now apply IH]. rewrite put_attr_keys. intros [->|H]; [|easy].
      now rewrite text_eqb_refl in E.
Qed.

Lemma put_attrs_cons attrs s x new :
  put_attrs attrs ((s, x) :: new) = put_attrs (put_attr attrs s x) new.
Proof. reflexivity. Qed.

Lemma put_attrs_nodup new : forall attrs,
  NoDup (map fst attrs) -> NoDup (map fst (put_attrs attrs new)).
Proof.
  induction new as [|[s x] new IH]; intros attrs N; [exact N|].
  rewrite put_attrs_cons. apply IH. now apply put_attr_nodup.
Qed.

Lemma attr_put_all new : forall attrs t, NoDup (map fst new) ->
  attr_schema (put_attrs attrs new) t
  = match attr_schema new t with Some x => Some x | None => attr_schema attrs t end.
Proof.
  induction new as [|[s x] new IH]; intros attrs t N; [reflexivity|].
  rewrite put_attrs_cons. inversion N as [|? ? N1 N2]; subst. rewrite IH by exact N2.
  cbn [attr_schema]. rewrite attr_put. destruct (text_eqb s t) eqn:E.
  - apply text_eqb_eq in E. subst t.
    destruct (attr_schema new s) as [y|] eqn:A; [|reflexivity].
    exfalso. apply N1. apply attr_schema_in in A. apply in_map_iff.
    now exists (s, y).
  - reflexivity.
Qed.

Lemma put_attrs_nil new : NoDup (map fst new) -> put_attrs [] new = new.
Proof.
  assert (Q : forall l k, NoDup (map fst (l ++ k)) -> put_attrs l k = l ++ k).
  { intros l k. revert l. induction k as [|[s x] k IH]; intros l N.
    - now rewrite app_nil_r.
    - rewrite put_attrs_cons.
      assert (put_attr l s x = l ++ [(s, x)]).
      { clear IH. induction l as [|[t y] l IHl]; [reflexivity|]. cbn in N |- *.
        inversion N as [|? ? N1 N2]; subst. destruct (text_eqb t s) eqn:E.
        - apply text_eqb_eq in E. subst t. exfalso. apply N1.
          rewrite map_app. apply in_or_app. right. now left.
        - f_equal. now apply IHl. }
      rewrite H. rewrite IH; rewrite <- app_assoc; [reflexivity|exact N]. }
  intros N. now apply (Q [] new).
Qed.

Lemma lookup_not_in b id : ~ In id (map fst b) -> lookup b id = NEntity [].
Proof.
  induction b as [|[i n] b IH]; cbn; [reflexivity|]. intros H.
  destruct (text_eqb i id) eqn:E; [|apply IH; tauto].
  apply text_eqb_eq in E. tauto.
Qed.

Lemma mem_in x l : mem x l = true <-> In x l.
Proof.
  unfold mem. rewrite existsb_exists. split.
  - intros [y [I E]]. apply text_eqb_eq in E. now subst.
  - intros I. exists x. split; [exact I|apply text_eqb_refl].
Qed.

Lemma lookup_app b c id :
  lookup (b ++ c) id = if mem id (map fst b) then lookup b id else lookup c id.
Proof.
  induction b as [|[i n] b IH]; [reflexivity|].
  cbn [app lookup map fst]. unfold mem. cbn [existsb]. fold (mem id (map fst b)).
  destruct (text_eqb i id) eqn:E.
  - apply text_eqb_eq in E. subst i. now rewrite text_eqb_refl.
  - replace (text_eqb id i) with false; [exact IH|].
    destruct (text_eqb id i) eqn:F; [|reflexivity].
    apply text_eqb_eq in F. subst. now rewrite text_eqb_refl in E.
Qed.

Lemma lookup_filter (f : text -> bool) u id : f id = true ->
  lookup (filter (fun idn => f (fst idn)) u) id = lookup u id.
Proof.
  intros F. induction u as [|[i n] u IH]; [reflexivity|]. cbn [filter fst lookup].
  destruct (text_eqb i id) eqn:E.
  - apply text_eqb_eq in E. subst i. rewrite F. cbn. now rewrite text_eqb_refl.
  - destruct (f i); cbn; [rewrite E|]; exact IH.
Qed.

Lemma lookup_map (g : text -> node -> node) b id : In id (map fst b) ->
  lookup (map (fun idn => (fst idn, g (fst idn) (snd idn))) b) id = g id (lookup b id).
Proof.
  induction b as [|[i n] b IH]; cbn; [easy|]. intros H.
  destruct (text_eqb i id) eqn:E.
  - apply text_eqb_eq in E. now subst.
  - apply IH. destruct H as [->|H]; [|exact H]. now rewrite text_eqb_refl in E.
Qed.

Lemma lookup_updated b u id : schema_bag_ok u ->
  lookup (schema_updated b u) id = merge_node (lookup b id) (lookup u id).
Proof.
  intros K. unfold schema_updated. rewrite lookup_app, map_map. cbn [fst].
  change (fun x : text * node => fst x) with (@fst text node).
  destruct (mem id (map fst b)) eqn:M.
  - apply (lookup_map (fun i n => merge_node n (lookup u i))). now apply mem_in.
  - rewrite (lookup_filter (fun i => negb (mem i (map fst b)))) by now rewrite M.
    rewrite (lookup_not_in b).
    + destruct (lookup u id) as [x|k v|attrs] eqn:L; cbn; try reflexivity.
      rewrite put_attrs_nil; [reflexivity|]. exact (K _ _ L).
    + intros I. apply mem_in in I. congruence.
Qed.

Section Schemas.
  Variable lx : lexicon.
  Variable struct : text -> option node.
  Hypothesis SO : struct_ok struct.

  Local Notation bag_ok := (bag_ok struct lx).
  Local Notation node_ok := (node_ok struct).

  Definition child (b : schema_bag) (id : text) (a : action) : option schema :=
    get_subschema b a (SNode id).

  (** An id whose node is a list or a dict, or an entity with attributes. *)
  Lemma bag_ok_list b id x : bag_ok b -> lookup b id = NList x -> struct id = Some (NList x).
  Proof.
    intros [_ B] L. destruct (B id ListExplode x) as (_ & _ & _ & H & _).
    { cbn. now rewrite L. }
    cbn in H. destruct (struct id) as [n|]; [congruence|]. destruct H as [attrs H]. congruence.
  Qed.

  Lemma bag_ok_dict b id k v : bag_ok b -> lookup b id = NDict k v ->
    struct id = Some (NDict k v).
  Proof.
    intros [_ B] L. destruct (B id DictGetKeys k) as (_ & _ & _ & H & _).
    { cbn. now rewrite L. }
    cbn in H. destruct (struct id) as [n|]; [congruence|]. destruct H as [attrs H]. congruence.
  Qed.

  Lemma bag_ok_entity b id s x attrs : bag_ok b -> lookup b id = NEntity ((s, x) :: attrs) ->
    struct id = None.
  Proof.
    intros [_ B] L. destruct (B id (GetAttr s) x) as (_ & _ & _ & H & _).
    { cbn. rewrite L. cbn. now rewrite text_eqb_refl. }
    cbn in H. destruct (struct id) as [n|] eqn:E; [|reflexivity].
    pose proof (SO id n E). rewrite L in H. now subst n.
  Qed.

  (** The steps of an updated schema. *)
  Lemma child_updated b u id a : bag_ok b -> bag_ok u ->
    child (schema_updated b u) id a
    = match child u id a with Some x => Some x | None => child b id a end.
  Proof.
    intros B U. unfold child. cbn [get_subschema]. rewrite lookup_updated by exact (proj1 U).
    destruct (lookup u id) as [x|k v|ys] eqn:LU.
    - pose proof (bag_ok_list u id x U LU) as SU.
      destruct (lookup b id) as [x'|k' v'|xs] eqn:LB.
      + rewrite (bag_ok_list b id x' B LB) in SU. assert (x' = x) by congruence. subst.
        cbn. now destruct a.
      + rewrite (bag_ok_dict b id k' v' B LB) in SU. discriminate.
      + destruct xs as [|[s y] xs].
        * cbn. now destruct a.
        * rewrite (bag_ok_entity b id s y xs B LB) in SU. discriminate.
    - pose proof (bag_ok_dict u id k v U LU) as SU.
      destruct (lookup b id) as [x'|k' v'|xs] eqn:LB.
      + rewrite (bag_ok_list b id x' B LB) in SU. discriminate.
      + rewrite (bag_ok_dict b id k' v' B LB) in SU. assert (k' = k /\ v' = v) by (split; congruence).
        destruct H as [-> ->]. cbn. now destruct a.
      + destruct xs as [|[s y] xs].
        * cbn. now destruct a.
        * rewrite (bag_ok_entity b id s y xs B LB) in SU. discriminate.
    - destruct (lookup b id) as [x'|k' v'|xs] eqn:LB.
      + destruct ys as [|[s y] ys]; [cbn; now destruct a|].
        pose proof (bag_ok_entity u id s y ys U LU) as SU.
        rewrite (bag_ok_list b id x' B LB) in SU. discriminate.
      + destruct ys as [|[s y] ys]; [cbn; now destruct a|].
        pose proof (bag_ok_entity u id s y ys U LU) as SU.
        rewrite (bag_ok_dict b id k' v' B LB) in SU. discriminate.
      + cbn [merge_node]. destruct a as [| | |s]; try reflexivity.
        apply attr_put_all. exact (proj1 U _ _ LU).
  Qed.

  Lemma updated_bag_ok b u : schema_bag_ok b -> schema_bag_ok u ->
    schema_bag_ok (schema_updated b u).
  Proof.
    intros B U id attrs. rewrite lookup_updated by exact U.
    destruct (lookup b id) as [x|k v|xs] eqn:LB, (lookup u id) as [y|k' v'|ys] eqn:LU;
      cbn; try discriminate.
    - destruct ys; [discriminate|]. intros E. injection E as <-. exact (U _ _ LU).
    - destruct ys; [discriminate|]. intros E. injection E as <-. exact (U _ _ LU).
    - intros E. injection E as <-. apply put_attrs_nodup. exact (B _ _ LB).
  Qed.

  (** A node that is fine in one of the bags is fine afterwards. *)
  Lemma node_ok_left b u x : bag_ok b -> bag_ok u ->
    node_ok b x -> node_ok (schema_updated b u) x.
  Proof.
    intros B U. destruct x as [id| | |]; cbn; try easy.
    rewrite lookup_updated by exact (proj1 U). destruct (struct id) as [n|] eqn:E.
    - intros L. rewrite L. pose proof (SO id n E) as Q.
      destruct (lookup u id) as [y|k v|ys] eqn:LU.
      + pose proof (bag_ok_list u id y U LU). assert (n = NList y) as -> by congruence. reflexivity.
      + pose proof (bag_ok_dict u id k v U LU). assert (n = NDict k v) as -> by congruence. reflexivity.
      + destruct ys as [|[s y] ys].
        * destruct n; [reflexivity|reflexivity|easy].
        * pose proof (bag_ok_entity u id s y ys U LU). congruence.
    - intros [attrs L]. rewrite L. destruct (lookup u id) as [y|k v|ys] eqn:LU.
      + pose proof (bag_ok_list u id y U LU). congruence.
      + pose proof (bag_ok_dict u id k v U LU). congruence.
      + cbn. eexists. reflexivity.
  Qed.

  Lemma node_ok_right b u x : bag_ok b -> bag_ok u ->
    node_ok u x -> node_ok (schema_updated b u) x.
  Proof.
    intros B U. destruct x as [id| | |]; cbn; try easy.
    rewrite lookup_updated by exact (proj1 U). destruct (struct id) as [n|] eqn:E.
    - intros L. rewrite L. pose proof (SO id n E) as Q.
      destruct (lookup b id) as [y|k v|ys] eqn:LB.
      + pose proof (bag_ok_list b id y B LB). assert (n = NList y) as -> by congruence. reflexivity.
      + pose proof (bag_ok_dict b id k v B LB). assert (n = NDict k v) as -> by congruence. reflexivity.
      + destruct n; [reflexivity|reflexivity|easy].
    - intros [attrs L]. rewrite L. destruct (lookup b id) as [y|k v|ys] eqn:LB.
      + pose proof (bag_ok_list b id y B LB). congruence.
      + pose proof (bag_ok_dict b id k v B LB). congruence.
      + cbn. eexists. reflexivity.
  Qed.

  Lemma bag_ok_updated b u : bag_ok b -> bag_ok u -> bag_ok (schema_updated b u).
  Proof.
    intros B U. split; [apply updated_bag_ok; [apply B|apply U]|].
    intros id a x. change (get_subschema (schema_updated b u) a (SNode id))
      with (child (schema_updated b u) id a).
    rewrite child_updated by assumption. destruct (child u id a) as [y|] eqn:C.
    - intros E. assert (y = x) by congruence. subst y.
      destruct (proj2 U id a x C) as (H1 & H2 & H3 & H4 & H5).
      repeat (split; [assumption|]). split; now apply node_ok_right.
    - intros E. destruct (proj2 B id a x E) as (H1 & H2 & H3 & H4 & H5).
      repeat (split; [assumption|]). split; now apply node_ok_left.
  Qed.

  Lemma bag_ok_nil : bag_ok [].
  Proof.
    split.
    - intros id attrs E. cbn in E. injection E as <-. constructor.
    - intros id a x. cbn. destruct a; discriminate.
  Qed.

  Lemma child_leads b id a x : schema_bag_ok b ->
    (child b id a = Some x <-> leads b (SNode id) [a] x).
  Proof.
    intros B. unfold child. split.
    - intros E. apply schema_at_leads; [exact B|]. cbn. cbn in E. now rewrite E.
    - intros L. apply schema_at_leads in L; [|exact B]. cbn [schema_at] in L.
      destruct (get_subschema b a (SNode id)); [congruence|discriminate].
  Qed.

  Lemma leads_ok b x p y : bag_ok b -> plain x -> node_ok b x -> leads b x p y ->
    plain y /\ node_ok b y.
  Proof.
    intros B P K L. revert x P K L. induction p as [|a p IH]; intros x P K L.
    - inversion L; subst. now split.
    - apply leads_cons in L as [z [I L]].
      assert (exists id, x = SNode id) as [id ->].
      { destruct x; try (cbn in I; easy). now eexists. }
      assert (C : child b id a = Some z).
      { apply child_leads; [apply B|]. apply step_expand. exact I. }
      destruct (proj2 B id a z C) as (_ & H2 & _ & _ & H5). now apply (IH z).
  Qed.

  Lemma graph_ok_of b x : bag_ok b -> plain x -> node_ok b x -> graph_ok lx b x.
  Proof.
    intros B P K. split; [apply B|]. split.
    - intros p y L. now apply (leads_ok b x p y B P K).
    - intros p a y L. apply leads_snoc in L as [z [L1 L2]].
      assert (exists id, z = SNode id) as [id ->].
      { destruct z; try (cbn in L2; easy). now eexists. }
      assert (C : child b id a = Some y).
      { apply child_leads; [apply B|]. apply step_expand. exact L2. }
      now destruct (proj2 B id a y C) as (_ & _ & H & _).
  Qed.

  (** What a schema mentions does not change for lists and dicts. *)
  Lemma child_struct b u id a x y : bag_ok b -> bag_ok u ->
    (forall s, a <> GetAttr s) ->
    child b id a = Some x -> child u id a = Some y -> x = y.
  Proof.
    intros B U NA C D. unfold child in C, D. cbn [get_subschema] in C, D.
    destruct a as [| | |s]; [| | |now destruct (NA s)].
    - destruct (lookup b id) as [|k v|] eqn:LB; try discriminate.
      destruct (lookup u id) as [|k' v'|] eqn:LU; try discriminate.
      pose proof (bag_ok_dict b id k v B LB). pose proof (bag_ok_dict u id k' v' U LU). congruence.
    - destruct (lookup b id) as [|k v|] eqn:LB; try discriminate.
      destruct (lookup u id) as [|k' v'|] eqn:LU; try discriminate.
      pose proof (bag_ok_dict b id k v B LB). pose proof (bag_ok_dict u id k' v' U LU). congruence.
    - destruct (lookup b id) as [z| |] eqn:LB; try discriminate.
      destruct (lookup u id) as [z'| |] eqn:LU; try discriminate.
      pose proof (bag_ok_list b id z B LB). pose proof (bag_ok_list u id z' U LU). congruence.
  Qed.

  (** Actions that read the same field are defined together. *)
  Lemma child_same_field b id a a' x : field_of a = field_of a' ->
    child b id a = Some x -> exists y, child b id a' = Some y.
  Proof.
    intros F C. unfold child in *. cbn [get_subschema] in *.
    destruct a as [| | |s], a' as [| | |s']; cbn in F; try discriminate;
      try (now exists x);
      try (destruct (lookup b id); try discriminate; eexists; reflexivity).
    injection F as <-. now exists x.
  Qed.
End Schemas.
