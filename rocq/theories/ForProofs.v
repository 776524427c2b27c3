(** Proofs about the variables of loops over streams. *)
From Coq Require Import String.
From Coq Require Import List Bool Arith Lia.
From Verif Require Import ForModel ForSpec.
Import ListNotations.
Local Open Scope list_scope.

Section Vars.
Variables (value type E : Type).
Variable type_of : value -> type.
Variable type_eqb : type -> type -> bool.
Hypothesis type_eqb_spec : forall a b, type_eqb a b = true <-> a = b.

(** Names and types *)
Definition sigs (l : variables value) : list (string * type) := map (fun x => (fst x, type_of (snd x))) l.

Lemma allowed_sigs (a b u : variables value) : sigs a = sigs b ->
  allowed type_of type_eqb a u = allowed type_of type_eqb b u.
Proof.
  intros H. unfold allowed. induction u as [|[n v] u IH]; [reflexivity|]. cbn [forallb fst snd]. rewrite IH. f_equal.
  clear IH. revert b H; induction a as [|[k w] a IH]; intros [|[k' w'] b] H; try discriminate H; [reflexivity|].
  cbn in H. injection H as -> Ht H. cbn [existsb fst snd]. now rewrite Ht, (IH _ H).
Qed.
Lemma sigs_names (l : variables value) : map fst (sigs l) = map fst l.
Proof. unfold sigs. rewrite map_map. reflexivity. Qed.

Definition set_to (n : string) (v : value) (l : variables value) : variables value :=
  map (fun x => if String.eqb (fst x) n then (fst x, v) else x) l.
Lemma set_variable_iff (l : variables value) n v : NoDup (map fst l) ->
  set_variable type_of type_eqb l n v = if allowed type_of type_eqb l [(n, v)] then Some (set_to n v l) else None.
Proof.
  intros ND. unfold set_variable. fold (set_to n v l).
  replace (allowed type_of type_eqb l [(n, v)])
    with (match find (fun x => String.eqb (fst x) n) l with
          | None => false | Some (_, old) => type_eqb (type_of old) (type_of v) end).
  - destruct (find _ l) as [[k old]|]; [|reflexivity]. now destruct (type_eqb _ _).
  - unfold allowed; cbn [forallb fst snd]. rewrite andb_true_r.
    induction l as [|[k w] l IH]; [reflexivity|]. cbn [find existsb fst snd map] in *.
    apply NoDup_cons_iff in ND. destruct ND as [N ND]. destruct (String.eqb k n) eqn:K; [|exact (IH ND)].
    apply String.eqb_eq in K. subst k. cbn [andb].
    replace (existsb _ l) with false; [now rewrite orb_false_r|].
    symmetry. apply not_true_iff_false. rewrite existsb_exists. intros ([k w'] & HI & H).
    apply andb_true_iff in H. destruct H as [H _]. apply String.eqb_eq in H. cbn in H. subst k.
    apply N. apply in_map_iff. now exists (n, w').
Qed.
Lemma set_to_sigs (l : variables value) n v : NoDup (map fst l) -> allowed type_of type_eqb l [(n, v)] = true -> sigs (set_to n v l) = sigs l.
Proof.
  unfold allowed; cbn [forallb fst snd]. rewrite andb_true_r. intros ND A.
  apply existsb_exists in A. destruct A as ([k w] & HI & A). cbn [fst snd] in A.
  apply andb_true_iff in A. destruct A as [K T]. apply String.eqb_eq in K. subst k. apply type_eqb_spec in T.
  unfold sigs, set_to. rewrite map_map. apply map_ext_in. intros [k w'] H. cbn [fst snd].
  destruct (String.eqb k n) eqn:K; [|reflexivity]. apply String.eqb_eq in K. subst k. cbn [fst snd].
  replace w' with w; [now rewrite T|]. clear -ND HI H.
  induction l as [|[k x] l IH]; [destruct HI|]. cbn in ND. apply NoDup_cons_iff in ND. destruct ND as [N ND].
  destruct HI as [HI|HI], H as [H|H]; try congruence.
  - injection HI as -> ->. exfalso. apply N. apply in_map_iff. now exists (n, w').
  - injection H as -> ->. exfalso. apply N. apply in_map_iff. now exists (n, w).
  - exact (IH ND HI H).
Qed.
Lemma update_fields_iff (u : variables value) : forall l, NoDup (map fst l) ->
  update_fields type_of type_eqb l u = if allowed type_of type_eqb l u then Some (overwritten l u) else None.
Proof.
  induction u as [|[n v] u IH]; intros l ND.
  - cbn. f_equal. unfold overwritten; cbn [given]. rewrite map_ext with (g := fun x => x); [now rewrite map_id|]. now intros [].
  - cbn [update_fields]. rewrite set_variable_iff by exact ND.
    change (allowed type_of type_eqb l ((n, v) :: u))
      with (existsb (fun y => String.eqb (fst y) n && type_eqb (type_of (snd y)) (type_of v)) l && allowed type_of type_eqb l u).
    assert (A1 : allowed type_of type_eqb l [(n, v)] = existsb (fun y => String.eqb (fst y) n && type_eqb (type_of (snd y)) (type_of v)) l)
      by (unfold allowed; cbn [forallb fst snd]; apply andb_true_r).
    rewrite <- A1. destruct (allowed type_of type_eqb l [(n, v)]) eqn:A; cbn [andb]; [|reflexivity].
    pose proof (set_to_sigs l n v ND A) as SG. rewrite IH by (rewrite <- sigs_names, SG, sigs_names; exact ND).
    rewrite (allowed_sigs _ _ u SG). destruct (allowed _ _ l u); [|reflexivity]. f_equal.
    unfold overwritten, set_to. rewrite map_map. apply map_ext. intros [k w]; cbn [fst snd given].
    destruct (String.eqb k n) eqn:K; cbn [fst snd].
    + apply String.eqb_eq in K. subst k. rewrite String.eqb_refl. now destruct (given n u).
    + rewrite String.eqb_sym, K. now destruct (given k u).
Qed.

Lemma given_in n (u : variables value) v : given n u = Some v -> In (n, v) u.
Proof.
  induction u as [|[k w] u IH]; [discriminate|]. cbn [given]. destruct (given n u) as [w'|].
  - intros [= ->]. right. now apply IH.
  - destruct (String.eqb k n) eqn:K; [|discriminate]. intros [= ->]. apply String.eqb_eq in K. subst. now left.
Qed.
Lemma given_none n (u : variables value) : given n u = None <-> existsb (fun x => String.eqb (fst x) n) u = false.
Proof.
  induction u as [|[k w] u IH]; [now split|]. cbn [given existsb fst]. destruct (given n u) as [w'|].
  - split; [discriminate|]. intros H. apply orb_false_iff in H. destruct H as [_ H]. now apply IH in H.
  - rewrite (proj1 IH eq_refl), orb_false_r. destruct (String.eqb k n); now split.
Qed.
Lemma update_fields_sigs (u : variables value) : forall l l', NoDup (map fst l) ->
  update_fields type_of type_eqb l u = Some l' -> sigs l' = sigs l.
Proof.
  induction u as [|[n v] u IH]; intros l l' ND H; cbn in H; [now injection H as <-|].
  destruct (set_variable _ _ l n v) as [l1|] eqn:S1; [|discriminate].
  rewrite set_variable_iff in S1 by exact ND. destruct (allowed _ _ l [(n, v)]) eqn:A; [|discriminate].
  injection S1 as <-. pose proof (set_to_sigs l n v ND A) as SG.
  rewrite <- SG. apply IH with (2 := H). rewrite <- sigs_names, SG, sigs_names; exact ND.
Qed.
Lemma overwritten_sigs (l u : variables value) : NoDup (map fst l) -> allowed type_of type_eqb l u = true ->
  sigs (overwritten l u) = sigs l.
Proof.
  intros ND A. apply update_fields_sigs with u; [exact ND|]. now rewrite update_fields_iff, A by exact ND.
Qed.

(** The variables with the last one *)
Lemma sigs_last (l0 : variables value) last initial l : sigs l = sigs (l0 ++ [(last, initial)]) ->
  exists vs v, l = vs ++ [(last, v)] /\ sigs vs = sigs l0 /\ type_of v = type_of initial.
Proof.
  unfold sigs. rewrite map_app. intros H. apply map_eq_app in H. destruct H as (a & b & -> & HA & HB).
  destruct b as [|[k v] [|? ?]]; try discriminate HB. cbn in HB. injection HB as -> T.
  exists a, v. now repeat split.
Qed.

Variables (m : mode) (last : string) (initial : value) (l0 : variables value).
Hypothesis names : NoDup (map fst l0).
Hypothesis fresh : ~ In last (map fst l0).

Lemma nodup_all l : sigs l = sigs (l0 ++ [(last, initial)]) -> NoDup (map fst l).
Proof.
  intros H. rewrite <- sigs_names, H, sigs_names, map_app. cbn.
  apply NoDup_rev in names. rewrite <- (rev_involutive (map fst l0 ++ [last])).
  apply NoDup_rev. rewrite rev_app_distr. cbn. apply NoDup_cons_iff. split; [|exact names].
  now rewrite <- in_rev.
Qed.

(** An update in the code and in the specification *)
Lemma update_outcome l (r : returned value E) : sigs l = sigs (l0 ++ [(last, initial)]) ->
  match update type_of type_eqb l r with
  | inr e => outcome type_of type_eqb m last initial r (arguments m l) = inr e
  | inl l' => sigs l' = sigs (l0 ++ [(last, initial)]) /\
      exists out, outcome type_of type_eqb m last initial r (arguments m l) = inl (arguments m l', out) /\
      (m = Returns -> out = []) /\
      (m = Yields -> out = if sets_last l' r then match last_value l' with Some v => [v] | None => [] end else [])
  end.
Proof.
  intros SG. destruct r as [e|u|]; [reflexivity| |reflexivity].
  unfold update. pose proof (nodup_all _ SG) as ND. rewrite update_fields_iff by exact ND.
  destruct (allowed type_of type_eqb l u) eqn:A.
  - pose proof (overwritten_sigs l u ND A) as SO. split; [now rewrite SO|].
    destruct (sigs_last _ _ _ _ SG) as (vs & v & -> & SV & TV).
    unfold outcome. destruct m.
    + exists []. cbn [arguments]. rewrite A. repeat split; [discriminate].
    + cbn [arguments]. rewrite removelast_last.
      replace (allowed type_of type_eqb (vs ++ [(last, initial)]) u) with true.
      2: { rewrite <- A. apply allowed_sigs. unfold sigs. rewrite !map_app. cbn. now rewrite TV. }
      eexists. split; [|split; [discriminate|]].
      * unfold overwritten at 2. rewrite map_app. cbn [map]. rewrite removelast_last. reflexivity.
      * intros _. unfold overwritten, last_value, sets_last. rewrite map_app. cbn [map].
        rewrite rev_app_distr. cbn [rev app fst snd].
        destruct (given last u) as [w|] eqn:G.
        -- destruct (existsb _ u) eqn:X; [reflexivity|]. apply given_none in X. congruence.
        -- rewrite (proj1 (given_none _ _) G). reflexivity.
  - unfold outcome. destruct m; cbn [arguments]; [now rewrite A|].
    destruct (sigs_last _ _ _ _ SG) as (vs & v & -> & SV & TV). rewrite removelast_last.
    replace (allowed type_of type_eqb (vs ++ [(last, initial)]) u) with false; [reflexivity|].
    rewrite <- A. apply allowed_sigs. unfold sigs. rewrite !map_app. cbn. now rewrite TV.
Qed.

Lemma result_last l : sigs l = sigs (l0 ++ [(last, initial)]) ->
  exists v, last_value l = Some v /\ result Returns last (arguments Returns l) = [v].
Proof.
  intros SG. pose proof (nodup_all _ SG) as ND. destruct (sigs_last _ _ _ _ SG) as (vs & v & -> & SV & TV).
  exists v. unfold last_value. rewrite rev_app_distr. split; [reflexivity|]. cbn [arguments result].
  replace (given last (vs ++ [(last, v)])) with (Some v); [reflexivity|].
  clear. induction vs as [|[k w] vs IH]; cbn; [now rewrite String.eqb_refl|]. now rewrite <- IH.
Qed.
Lemma set_last_sigs l v : sigs l = sigs (l0 ++ [(last, initial)]) -> v = initial ->
  sigs (set_last l v) = sigs (l0 ++ [(last, initial)]) /\ arguments Yields (set_last l v) = arguments Yields l.
Proof.
  intros SG ->. destruct (sigs_last _ _ _ _ SG) as (vs & w & -> & SV & TV).
  unfold set_last. rewrite rev_app_distr. cbn [rev app]. rewrite rev_involutive. split.
  - rewrite <- SG. unfold sigs. rewrite !map_app. cbn. now rewrite TV.
  - cbn [arguments]. now rewrite !removelast_last.
Qed.
End Vars.
