(** Concrete histories: what has to be checked for an update. *)
From Coq Require Import String.
From Coq Require Import NArith ZArith List Bool PeanoNat Lia.
From Verif Require Import PathModel PathSpec PathProofs PathGenProofs PathCodecModel
  GraphModel GraphSpec GraphProofs
  SliceManagerModel SliceManagerSpec SliceManagerDataProofs SliceManagerProcessProofs.
Import ListNotations.
Local Open Scope list_scope.
Local Open Scope nat_scope.

(** All that a bag of schemas says. *)
Definition edges (b : schema_bag) : list schema_fact :=
  flat_map (fun idn =>
    match snd idn with
    | NList x => [(fst idn, ListExplode, x)]
    | NDict k v => [(fst idn, DictGetKeys, k); (fst idn, DictGetValues, v)]
    | NEntity attrs => map (fun sx => (fst idn, GetAttr (fst sx), snd sx)) attrs
    end) b.

Lemma attr_schema_found attrs s x : attr_schema attrs s = Some x -> In (s, x) attrs.
Proof.
  induction attrs as [|[t y] attrs IH]; cbn; [discriminate|].
  destruct (text_eqb t s) eqn:E; [|auto]. apply text_eqb_eq in E. intros H. left. congruence.
Qed.

Lemma lookup_cases b id : lookup b id = NEntity [] \/ In (id, lookup b id) b.
Proof.
  induction b as [|[i n] b IH]; [now left|]. cbn [lookup].
  destruct (text_eqb i id) eqn:E.
  - apply text_eqb_eq in E. subst. right. now left.
  - destruct IH as [IH|IH]; [now left|right; now right].
Qed.

Lemma subschema_edge b id a x : get_subschema b a (SNode id) = Some x -> In (id, a, x) (edges b).
Proof.
  cbn. intros E. unfold edges. apply in_flat_map.
  destruct (lookup_cases b id) as [L|I].
  { rewrite L in E. destruct a; cbn in E; discriminate. }
  exists (id, lookup b id). split; [exact I|]. cbn [fst snd].
  destruct a as [| | |t]; destruct (lookup b id) as [y|k v|attrs]; try discriminate; cbn.
  - left. congruence.
  - right. left. congruence.
  - left. congruence.
  - apply in_map_iff. exists (t, x). split; [reflexivity|]. now apply attr_schema_found.
Qed.

Section Checks.
  Variable lx : lexicon.
  Variable ty : N -> text.
  Variable struct : text -> option node.
  Variable root : N.
  Variable root_schema : text.

  Definition edge_ok (b : schema_bag) (e : schema_fact) : Prop :=
    match e with
    | (id, a, x) =>
        plain (SNode id) /\ plain x /\ printable lx a
        /\ node_ok struct b (SNode id) /\ node_ok struct b x
    end.

  Lemma bag_ok_edges b :
    Forall (fun idn => match snd idn with NEntity attrs => NoDup (map fst attrs) | _ => True end) b ->
    Forall (edge_ok b) (edges b) -> bag_ok struct lx b.
  Proof.
    intros N F. split.
    - intros id attrs L. destruct (lookup_cases b id) as [Q|I].
      + assert (attrs = []) as -> by congruence. constructor.
      + rewrite L in I. rewrite Forall_forall in N. exact (N _ I).
    - intros id a x E. apply subschema_edge in E. rewrite Forall_forall in F. exact (F _ E).
  Qed.

  (** The checks for an update, as lists. *)
  Lemma change_ok_lists st u at_id :
    Forall (fun idn => match snd idn with NEntity attrs => NoDup (map fst attrs) | _ => True end)
      (u_schemas u) ->
    Forall (edge_ok (u_schemas u)) (edges (u_schemas u)) ->
    plain (u_schema u) -> node_ok struct (u_schemas u) (u_schema u) ->
    printable lx (GetAttr (u_attr u)) ->
    Forall (fun e => exists p, leads (u_schemas u) (u_schema u) p (SNode (fst (fst e))))
      (edges (u_schemas u)) ->
    Forall (fun sc => content_ok (snd (fst sc)) (snd sc)) (u_data u) ->
    Forall (fun sc => forall a x i, field_of a = snd (fst sc) ->
              update_child u at_id (ty (fst (fst sc))) a = Some x ->
              In i (items_read a (snd sc)) -> item_ok ty x i)
      (stub_data u (targets_of root st (u_path u))) ->
    change_ok ty struct root lx st u at_id.
  Proof.
    intros H1 H2 H3 H4 H5 H6 H7 H8. split; [now apply bag_ok_edges|].
    split; [exact H3|]. split; [exact H4|]. split; [exact H5|]. split.
    { intros id a x E. apply subschema_edge in E. rewrite Forall_forall in H6. exact (H6 _ E). }
    split.
    { intros s c I. rewrite Forall_forall in H7. exact (H7 _ I). }
    intros o a x c i CH G I. apply bag_get_in in G. rewrite Forall_forall in H8.
    exact (H8 _ G a x i eq_refl CH I).
  Qed.

  (** The same as a computation. *)
  Fixpoint different {A} (eqb : A -> A -> bool) (l : list A) : bool :=
    match l with
    | [] => true
    | x :: l => negb (existsb (eqb x) l) && different eqb l
    end.
  Lemma different_ok {A} (eqb : A -> A -> bool) :
    (forall x y, eqb x y = true <-> x = y) -> forall l, different eqb l = true -> NoDup l.
  Proof.
    intros E l. induction l as [|x l IH]; cbn; [constructor|]. intros H.
    apply andb_true_iff in H as [H1 H2]. apply negb_true_iff in H1.
    constructor; [|now apply IH]. intros J.
    assert (existsb (eqb x) l = true) by (apply existsb_exists; exists x; split; [exact J|now apply E]).
    congruence.
  Qed.

  Definition alphanumericb (c : N) : bool :=
    (N.leb 48 c && N.leb c 57) || (N.leb 65 c && N.leb c 90) || (N.leb 97 c && N.leb c 122).
  Definition plainb (x : schema) : bool :=
    match x with
    | SNode id => forallb alphanumericb id
    | SPrimitive n => forallb (fun c => alphanumericb c || N.eqb c 95) n
    | SObject | SSchema => true
    end.
  Lemma alphanumericb_ok c : alphanumericb c = true -> alphanumeric c.
  Proof.
    unfold alphanumericb, alphanumeric. intros H. apply orb_true_iff in H as [H|H].
    - apply orb_true_iff in H as [H|H]; apply andb_true_iff in H as [H1 H2];
        apply N.leb_le in H1, H2; auto.
    - apply andb_true_iff in H as [H1 H2]; apply N.leb_le in H1, H2; auto.
  Qed.
  Lemma plainb_ok x : plainb x = true -> plain x.
  Proof.
    destruct x; cbn; try easy; intros H; rewrite forallb_forall in H; apply Forall_forall;
      intros c I; specialize (H c I).
    - now apply alphanumericb_ok.
    - apply orb_true_iff in H as [H|H]; [left; now apply alphanumericb_ok|right; now apply N.eqb_eq].
  Qed.

  Definition same_schema (x y : schema) : bool :=
    match x, y with
    | SNode a, SNode b => text_eqb a b
    | SPrimitive a, SPrimitive b => text_eqb a b
    | _, _ => false
    end.
  Lemma same_schema_ok x y : same_schema x y = true -> x = y.
  Proof. destruct x, y; cbn; try discriminate; intros H; apply text_eqb_eq in H; congruence. Qed.

  Definition node_okb (b : schema_bag) (x : schema) : bool :=
    match x with
    | SNode id =>
        match struct id, lookup b id with
        | None, NEntity _ => true
        | Some (NList x), NList y => same_schema x y
        | Some (NDict k v), NDict k' v' => same_schema k k' && same_schema v v'
        | _, _ => false
        end
    | _ => true
    end.
  Lemma node_okb_ok b x : node_okb b x = true -> node_ok struct b x.
  Proof.
    destruct x as [id| | |]; cbn; try easy.
    destruct (struct id) as [[y|k v|ys]|], (lookup b id) as [z|k' v'|zs]; try discriminate; intros H.
    - apply same_schema_ok in H. congruence.
    - apply andb_true_iff in H as [H1 H2]. apply same_schema_ok in H1, H2. congruence.
    - now exists zs.
  Qed.

  Definition printableb (a : action) : bool :=
    match a with GetAttr s => isidentifier lx s | _ => true end.
  Lemma printableb_ok a : printableb a = true -> printable lx a.
  Proof. destruct a; cbn; auto. Qed.

  Definition edge_okb (b : schema_bag) (e : schema_fact) : bool :=
    match e with
    | (id, a, x) =>
        plainb (SNode id) && plainb x && printableb a
        && node_okb b (SNode id) && node_okb b x
    end.
  Lemma edge_okb_ok b e : edge_okb b e = true -> edge_ok b e.
  Proof.
    destruct e as [[id a] x]. unfold edge_okb, edge_ok. intros H.
    apply andb_true_iff in H as [H H5]. apply andb_true_iff in H as [H H4].
    apply andb_true_iff in H as [H H3]. apply andb_true_iff in H as [H1 H2].
    split; [now apply plainb_ok|]. split; [now apply plainb_ok|].
    split; [now apply printableb_ok|]. split; now apply node_okb_ok.
  Qed.

  Definition content_okb (f : field) (c : content) : bool :=
    match f, c with
    | FAttr _, CValue _ => true
    | FItems, CItems _ => true
    | FEntries, CEntries (e :: l) => different item_eqb (map fst (e :: l))
    | _, _ => false
    end.
  Lemma content_okb_ok f c : content_okb f c = true -> content_ok f c.
  Proof.
    destruct f, c as [v|l|[|e l]]; try discriminate; try easy. intros H. split; [discriminate|].
    exact (different_ok item_eqb item_eqb_eq _ H).
  Qed.

  Definition item_okb (x : schema) (i : option item) : bool :=
    match x, i with
    | SNode id, Some (Obj o) => text_eqb (ty o) id
    | SNode id, Some (Prim _) => false
    | _, _ => true
    end.
  Lemma item_okb_ok x i : item_okb x i = true -> item_ok ty x i.
  Proof. destruct x, i as [[o|v]|]; cbn; try easy. now apply text_eqb_eq. Qed.

  (** The actions that read a field. *)
  Definition readers (f : field) : list action :=
    match f with
    | FAttr s => [GetAttr s]
    | FItems => [ListExplode]
    | FEntries => [DictGetKeys; DictGetValues]
    end.
  Lemma readers_all a : In a (readers (field_of a)).
  Proof. destruct a; cbn; auto. Qed.

  Definition typedb (u : change) (at_id : text) (sc : fact) : bool :=
    forallb (fun a =>
      match update_child u at_id (ty (fst (fst sc))) a with
      | Some x => forallb (item_okb x) (items_read a (snd sc))
      | None => true
      end) (readers (snd (fst sc))).

  Definition change_check (st : state) (u : change) (at_id : text) (paths : list path) : bool :=
    forallb (fun idn => match snd idn with
                        | NEntity attrs => different text_eqb (map fst attrs)
                        | _ => true
                        end) (u_schemas u)
    && forallb (edge_okb (u_schemas u)) (edges (u_schemas u))
    && plainb (u_schema u) && node_okb (u_schemas u) (u_schema u)
    && printableb (GetAttr (u_attr u))
    && forallb (fun e => existsb (fun p =>
         match schema_at (u_schemas u) (u_schema u) p with
         | Some (SNode id) => text_eqb id (fst (fst e))
         | _ => false
         end) paths) (edges (u_schemas u))
    && forallb (fun sc => content_okb (snd (fst sc)) (snd sc)) (u_data u)
    && forallb (typedb u at_id) (stub_data u (targets_of root st (u_path u))).

  Lemma change_checked st u at_id paths :
    change_check st u at_id paths = true -> change_ok ty struct root lx st u at_id.
  Proof.
    intros H. unfold change_check in H.
    apply andb_true_iff in H as [H H8]. apply andb_true_iff in H as [H H7].
    apply andb_true_iff in H as [H H6]. apply andb_true_iff in H as [H H5].
    apply andb_true_iff in H as [H H4]. apply andb_true_iff in H as [H H3].
    apply andb_true_iff in H as [H1 H2].
    rewrite forallb_forall in H1, H2, H6, H7, H8.
    assert (D : Forall (fun idn : text * node =>
              match snd idn with NEntity attrs => NoDup (map fst attrs) | _ => True end) (u_schemas u)).
    { apply Forall_forall. intros [id n] I. specialize (H1 _ I). cbn in *.
      destruct n; try exact Logic.I. exact (different_ok text_eqb text_eqb_eq _ H1). }
    assert (E : Forall (edge_ok (u_schemas u)) (edges (u_schemas u))).
    { apply Forall_forall. intros e I. apply edge_okb_ok. now apply H2. }
    apply change_ok_lists; auto.
    - now apply plainb_ok.
    - now apply node_okb_ok.
    - now apply printableb_ok.
    - apply Forall_forall. intros e I. specialize (H6 e I).
      apply existsb_exists in H6 as [p [_ P]]. exists p. apply schema_at_leads.
      { exact (proj1 (bag_ok_edges _ D E)). }
      destruct (schema_at (u_schemas u) (u_schema u) p) as [[id| | |]|]; try discriminate.
      apply text_eqb_eq in P. congruence.
    - apply Forall_forall. intros sc I. apply content_okb_ok. now apply H7.
    - apply Forall_forall. intros [[o f] c] I a x i F CH J. specialize (H8 _ I).
      unfold typedb in H8. cbn [fst snd] in *. rewrite forallb_forall in H8.
      assert (R : In a (readers f)) by (rewrite <- F; apply readers_all).
      specialize (H8 a R). rewrite CH in H8. rewrite forallb_forall in H8.
      apply item_okb_ok. now apply H8.
  Qed.

  (** The state after an update all of whose data is reached. *)
  Definition applied (st : state) (u : change) (at_id : text) : state :=
    State
      (fun id a => match update_child u at_id id a with
                   | Some x => Some x
                   | None => st_child st id a
                   end)
      (fun s => match update_data u (targets_of root st (u_path u)) s with
                | Some c => Some (over (st_data st s) c)
                | None => st_data st s
                end).

  (** Which item ids are reached, step by step. *)
  Definition step_from (u : change) (at_id : text) (data : bag) (o : N) : list N :=
    flat_map (fun sc =>
      if N.eqb (fst (fst sc)) o then
        flat_map (fun a =>
          match update_child u at_id (ty o) a with
          | Some (SNode _) =>
              match bag_get data (o, field_of a) with
              | Some c => objects (items_read a c)
              | None => []
              end
          | _ => []
          end)
          (readers (snd (fst sc)))
      else []) data.
  Fixpoint reach (u : change) (at_id : text) (data : bag) (n : nat) (l : list N) : list N :=
    match n with
    | O => l
    | S n => l ++ reach u at_id data n (flat_map (step_from u at_id data) l)
    end.

  Lemma reach_ok u at_id data targets n : forall l,
    (forall o, In o l -> reached ty (update_child u at_id) (bag_get data) targets o) ->
    forall o, In o (reach u at_id data n l) ->
      reached ty (update_child u at_id) (bag_get data) targets o.
  Proof.
    induction n as [|n IH]; intros l H o I; [now apply H|]. cbn in I.
    apply in_app_or in I as [I|I]; [now apply H|]. apply (IH _) in I; [exact I|].
    clear o I. intros o I. apply in_flat_map in I as [o1 [I1 I2]].
    unfold step_from in I2. apply in_flat_map in I2 as [[[o2 f] c2] [_ I2]]. cbn [fst snd] in I2.
    destruct (N.eqb o2 o1); [|easy]. apply in_flat_map in I2 as [a [_ I2]].
    destruct (update_child u at_id (ty o1) a) as [[id| | |]|] eqn:CH; try easy.
    destruct (bag_get data (o1, field_of a)) as [c|] eqn:G; [|easy].
    apply (reached_step _ _ _ _ o1 a id c o); [now apply H|exact CH|exact G|].
    now apply objects_in.
  Qed.

  Definition has_field (u : change) (at_id : text) (s : slot) : bool :=
    existsb (fun a => match update_child u at_id (ty (fst s)) a with Some _ => true | None => false end)
      match snd s with
      | FAttr t => [GetAttr t]
      | FItems => [ListExplode]
      | FEntries => [DictGetKeys]
      end.

  Lemma has_field_ok u at_id s : has_field u at_id s = true ->
    exists a x, update_child u at_id (ty (fst s)) a = Some x /\ field_of a = snd s.
  Proof.
    intros E. apply existsb_exists in E as [a [I E]].
    destruct (update_child u at_id (ty (fst s)) a) as [x|] eqn:CH; [|discriminate].
    exists a, x. split; [exact CH|]. destruct (snd s); destruct I as [<-|[]]; reflexivity.
  Qed.

  Definition all_reached (st : state) (u : change) (at_id : text) : bool :=
    let targets := targets_of root st (u_path u) in
    let data := stub_data u targets in
    forallb (fun sc => memN (fst (fst sc))
                         (reach u at_id data (length data) (objects targets))
                       && has_field u at_id (fst sc)) data.

  Lemma all_written st u at_id s c : all_reached st u at_id = true ->
    update_data u (targets_of root st (u_path u)) s = Some c ->
    written ty root st u at_id s c.
  Proof.
    intros A G. unfold all_reached in A. rewrite forallb_forall in A.
    pose proof (bag_get_in _ _ _ G) as I. specialize (A _ I). cbn [fst] in A.
    apply andb_true_iff in A as [A1 A2]. split; [|split; [exact G|now apply has_field_ok]].
    apply memN_in in A1.
    refine (reach_ok u at_id _ (objects (targets_of root st (u_path u))) _ _ _ _ A1).
    intros o J. now constructor.
  Qed.

  Lemma after_applied st u at_id :
    schema_along (st_child st) (SNode root_schema) (u_path u) = Some (SNode at_id) ->
    all_reached st u at_id = true -> after ty root root_schema st u (applied st u at_id).
  Proof.
    intros AT A. exists at_id. split; [exact AT|]. split; [reflexivity|]. split.
    - intros s c (_ & G & _). cbn. now rewrite G.
    - intros s N. cbn. destruct (update_data u _ s) as [c|] eqn:G; [|reflexivity].
      destruct (N c). now apply all_written.
  Qed.
End Checks.

(** One more update in a concrete history. *)
Lemma history_step ty struct root root_schema (A : state -> change -> Prop) lx pop
    d ms ks sts m u st at_id :
  history ty struct root root_schema A lx pop d ms ks sts -> In m ms ->
  nth_error sts (m_number m) = Some st ->
  schema_along (st_child st) (SNode root_schema) (u_path u) = Some (SNode at_id) ->
  change_ok ty struct root lx st u at_id -> A st u ->
  snd (update lx pop root root_schema d m u NoCut) = Some (Done tt) ->
  all_reached ty root st u at_id = true ->
  history ty struct root root_schema A lx pop
    (fst (fst (update lx pop root root_schema d m u NoCut)))
    (snd (fst (update lx pop root root_schema d m u NoCut)) :: ms)
    (ks ++ [AttributeUpdate (u_path u) (u_attr u)]) (sts ++ [applied root st u at_id]).
Proof.
  intros H I E AT C Q U R.
  apply (history_update ty struct root root_schema A lx pop d ms ks sts m u NoCut _ _ st _ H I E).
  - now exists at_id.
  - exact Q.
  - destruct (update lx pop root root_schema d m u NoCut) as [[d' m'] r]. cbn [fst snd] in *. congruence.
  - now apply after_applied.
Qed.

(** Updates that keep schemas, as a list. *)
Lemma keeping_edges root_schema st u at_id :
  schema_along (st_child st) (SNode root_schema) (u_path u) = Some (SNode at_id) ->
  match st_child st at_id (GetAttr (u_attr u)) with Some x => x = u_schema u | None => True end ->
  Forall (fun e => match st_child st (fst (fst e)) (snd (fst e)) with
                   | Some x => x = snd e
                   | None => True
                   end) (edges (u_schemas u)) ->
  keeping root_schema st u.
Proof.
  intros AT K F at_id' AT' id a x y CH UP. assert (at_id' = at_id) as -> by congruence.
  unfold update_child in UP. destruct (text_eqb id at_id && action_eqb a (GetAttr (u_attr u))) eqn:E.
  - apply andb_true_iff in E as [E1 E2]. apply text_eqb_eq in E1. apply action_eqb_eq in E2. subst.
    rewrite CH in K. congruence.
  - apply subschema_edge in UP. rewrite Forall_forall in F. specialize (F _ UP). cbn [fst snd] in F.
    rewrite CH in F. exact F.
Qed.

(** Updates that change the schema of one attribute and write it for all that
    have it. *)
Lemma replacing_edges ty root root_schema st u at_id :
  schema_along (st_child st) (SNode root_schema) (u_path u) = Some (SNode at_id) ->
  all_reached ty root st u at_id = true ->
  (forall o, ty o = at_id -> st_data st (o, FAttr (u_attr u)) <> None ->
     update_data u (targets_of root st (u_path u)) (o, FAttr (u_attr u)) <> None) ->
  Forall (fun e => match st_child st (fst (fst e)) (snd (fst e)) with
                   | Some x => x = snd e
                   | None => True
                   end) (edges (u_schemas u)) ->
  replacing ty root root_schema st u.
Proof.
  intros AT AR K F at_id' AT' o s x y CH UP NE D. assert (at_id' = at_id) as -> by congruence.
  unfold update_child in UP. destruct (text_eqb (ty o) at_id && action_eqb (GetAttr s) (GetAttr (u_attr u))) eqn:E.
  - apply andb_true_iff in E as [E1 E2]. apply text_eqb_eq in E1. apply action_eqb_eq in E2.
    injection E2 as ->. specialize (K o E1 D).
    destruct (update_data u (targets_of root st (u_path u)) (o, FAttr (u_attr u))) as [c|] eqn:G; [|easy].
    exists c. now apply all_written.
  - apply subschema_edge in UP. rewrite Forall_forall in F. specialize (F _ UP). cbn [fst snd] in F.
    rewrite CH in F. congruence.
Qed.

Lemma history_weaken ty struct root root_schema (A B : state -> change -> Prop) lx pop :
  (forall st u, A st u -> B st u) -> forall d ms ks sts,
  history ty struct root root_schema A lx pop d ms ks sts ->
  history ty struct root root_schema B lx pop d ms ks sts.
Proof.
  intros AB d ms ks sts H. induction H.
  - apply history_new.
  - eapply history_open; eassumption.
  - eapply history_copy; eassumption.
  - eapply history_update; eauto.
  - eapply history_no_update; eassumption.
  - eapply history_branch; eassumption.
Qed.
