(** Proofs about sets, dicts of sets, converse relations and closures. *)
From Coq Require Import String.
From Coq Require Import NArith ZArith List Bool PeanoNat Lia Permutation Relations.
From Verif Require Import PathModel PathSpec PathProofs GraphModel GraphSpec.
Import ListNotations.
Local Open Scope list_scope.
Local Open Scope nat_scope.

Lemma mem_in x l : mem x l = true <-> In x l.
Proof.
  unfold mem. rewrite existsb_exists. split.
  - intros [y [I E]]. apply text_eqb_eq in E. now subst.
  - intros I. exists x. split; [assumption|apply text_eqb_refl].
Qed.

Lemma mem_false x l : mem x l = false <-> ~ In x l.
Proof. rewrite <- mem_in. now destruct (mem x l). Qed.

Lemma text_eqb_neq a b : text_eqb a b = false <-> a <> b.
Proof. rewrite <- text_eqb_eq. now destruct (text_eqb a b). Qed.

Lemma set_add_in x l y : In y (set_add x l) <-> y = x \/ In y l.
Proof.
  unfold set_add. destruct (mem x l) eqn:E.
  - apply mem_in in E. intuition now subst.
  - rewrite in_app_iff. cbn. intuition congruence.
Qed.

Lemma set_update_in l k y : In y (set_update l k) <-> In y l \/ In y k.
Proof.
  unfold set_update. revert l; induction k as [|x k IH]; intros l; cbn; [tauto|].
  rewrite IH, set_add_in. intuition congruence.
Qed.

Lemma set_add_length x l : length (set_add x l) <= S (length l).
Proof. unfold set_add. destruct (mem x l); [lia|]. rewrite app_length. cbn. lia. Qed.

Lemma set_update_length l k : length (set_update l k) <= length l + length k.
Proof.
  unfold set_update. revert l; induction k as [|x k IH]; intros l; cbn [fold_left length]; [lia|].
  specialize (IH (set_add x l)). pose proof (set_add_length x l). lia.
Qed.

Lemma set_add_nodup x l : NoDup l -> NoDup (set_add x l).
Proof.
  intros D. unfold set_add. destruct (mem x l) eqn:E; [assumption|].
  apply mem_false in E. apply (Permutation_NoDup (Permutation_cons_append l x)).
  now constructor.
Qed.

Lemma set_update_nodup l k : NoDup l -> NoDup (set_update l k).
Proof.
  unfold set_update. revert l; induction k as [|x k IH]; intros l D; cbn; [assumption|].
  apply IH. now apply set_add_nodup.
Qed.

(** * Relations *)

Lemma get_in r x ys : get r x = Some ys -> In (x, ys) r.
Proof.
  induction r as [|[y zs] r IH]; cbn; [discriminate|].
  destruct (text_eqb y x) eqn:E.
  - apply text_eqb_eq in E. intros H. injection H as ->. left. congruence.
  - intros H. right. now apply IH.
Qed.

Lemma in_get r x ys : NoDup (map fst r) -> In (x, ys) r -> get r x = Some ys.
Proof.
  induction r as [|[y zs] r IH]; cbn; intros D I; [easy|].
  apply NoDup_cons_iff in D as [D1 D2]. destruct I as [I|I].
  - injection I as -> ->. now rewrite text_eqb_refl.
  - destruct (text_eqb y x) eqn:E.
    + apply text_eqb_eq in E. subst y. exfalso. apply D1. now apply (in_map fst) in I.
    + now apply IH.
Qed.

Lemma get_some r x : In x (map fst r) <-> exists ys, get r x = Some ys.
Proof.
  split.
  - induction r as [|[y zs] r IH]; cbn; intros I; [easy|].
    destruct (text_eqb y x) eqn:E; [now exists zs|].
    apply IH. destruct I as [I|I]; [|assumption]. subst y.
    now rewrite text_eqb_refl in E.
  - intros [ys H]. apply get_in in H. now apply (in_map fst) in H.
Qed.

Lemma get_app r x ys k : get (r ++ [(x, ys)]) k =
  match get r k with
  | Some zs => Some zs
  | None => if text_eqb x k then Some ys else None
  end.
Proof.
  induction r as [|[y zs] r IH]; cbn; [reflexivity|].
  destruct (text_eqb y k); [reflexivity|]. exact IH.
Qed.

Lemma add_child_keys r p c r' :
  add_child r p c = Some r' -> map fst r' = map fst r.
Proof.
  revert r'; induction r as [|[y ys] r IH]; intros r'; cbn; [discriminate|].
  destruct (text_eqb y p).
  - intros E; injection E as <-. reflexivity.
  - destruct (add_child r p c) as [k|] eqn:A; [|discriminate].
    intros E; injection E as <-. cbn. now rewrite (IH k).
Qed.

Lemma add_child_get r p c r' n :
  add_child r p c = Some r' ->
  get r' n = match get r n with
             | Some ys => Some (if text_eqb p n then set_add c ys else ys)
             | None => None
             end.
Proof.
  revert r'; induction r as [|[y ys] r IH]; intros r'; cbn; [discriminate|].
  destruct (text_eqb y p) eqn:E.
  - intros H; injection H as <-. cbn. apply text_eqb_eq in E. subst y.
    destruct (text_eqb p n); [reflexivity|]. now destruct (get r n).
  - destruct (add_child r p c) as [k|] eqn:A; [|discriminate].
    intros H; injection H as <-. cbn.
    destruct (text_eqb y n) eqn:F.
    + apply text_eqb_eq in F. subst n. destruct (text_eqb p y) eqn:G; [|reflexivity].
      apply text_eqb_eq in G. subst y. now rewrite text_eqb_refl in E.
    + now apply IH.
Qed.

Lemma add_child_defined r p c :
  In p (map fst r) -> exists r', add_child r p c = Some r'.
Proof.
  induction r as [|[y ys] r IH]; cbn; intros I; [easy|].
  destruct (text_eqb y p) eqn:E; [now eexists|].
  destruct IH as [k K].
  - destruct I as [I|I]; [|assumption]. subst y. now rewrite text_eqb_refl in E.
  - rewrite K. now eexists.
Qed.

Lemma add_child_edge r p c r' x y :
  add_child r p c = Some r' -> In p (map fst r) ->
  (edge r' x y <-> edge r x y \/ (x = p /\ y = c)).
Proof.
  intros A P. unfold edge. rewrite (add_child_get _ _ _ _ x A).
  apply get_some in P as [ps P]. split.
  - intros [ys [E I]]. destruct (get r x) as [zs|] eqn:G; [|discriminate].
    injection E as <-. destruct (text_eqb p x) eqn:F.
    + apply text_eqb_eq in F. subst x. apply set_add_in in I as [I|I]; [now right|].
      left. now exists zs.
    + left. now exists zs.
  - intros [[ys [E I]]|[-> ->]].
    + rewrite E. eexists; split; [reflexivity|].
      destruct (text_eqb p x); [apply set_add_in; now right|assumption].
    + rewrite P, text_eqb_refl. eexists; split; [reflexivity|].
      apply set_add_in. now left.
Qed.

(** * Converse relations *)

Lemma default_add_edge r y x u v :
  edge (default_add r y x) u v <-> edge r u v \/ (u = y /\ v = x).
Proof.
  induction r as [|[z zs] r IH].
  - unfold edge. cbn. destruct (text_eqb y u) eqn:E.
    + apply text_eqb_eq in E. subst u. split.
      * intros [ys [F I]]. injection F as <-. destruct I as [I|[]]. now right.
      * intros [[ys [F _]]|[_ ->]]; [discriminate|]. exists [x]. split; [reflexivity|now left].
    + apply text_eqb_neq in E. split; [intros [ys [F _]]; discriminate|].
      intros [[ys [F _]]|[F _]]; [discriminate|]. congruence.
  - cbn [default_add]. destruct (text_eqb z y) eqn:E.
    + apply text_eqb_eq in E. subst z. unfold edge. cbn.
      destruct (text_eqb y u) eqn:F.
      * apply text_eqb_eq in F. subst u. split.
        -- intros [ys [G I]]. injection G as <-. apply set_add_in in I as [I|I]; [now right|].
           left. now exists zs.
        -- intros [[ys [G I]]|[_ ->]].
           ++ injection G as <-. eexists; split; [reflexivity|]. apply set_add_in. now right.
           ++ eexists; split; [reflexivity|]. apply set_add_in. now left.
      * apply text_eqb_neq in F. intuition congruence.
    + revert IH. unfold edge. cbn. destruct (text_eqb z u) eqn:F; [|tauto].
      intros _. apply text_eqb_eq in F. apply text_eqb_neq in E. subst u.
      intuition congruence.
Qed.

Lemma default_adds_edge ys x u v : forall r,
  edge (fold_left (fun r y => default_add r y x) ys r) u v
  <-> edge r u v \/ (v = x /\ In u ys).
Proof.
  induction ys as [|y ys IH]; intros r; cbn; [tauto|].
  rewrite IH, default_add_edge. intuition congruence.
Qed.

Lemma converse_edge r u v :
  NoDup (map fst r) -> (edge (converse_relation r) u v <-> edge r v u).
Proof.
  intros D. unfold converse_relation.
  assert (H : forall k, edge (fold_left
      (fun res xys => fold_left (fun res y => default_add res y (fst xys)) (snd xys) res)
      r k) u v <-> edge k u v \/ exists ys, In (v, ys) r /\ In u ys).
  { clear D. induction r as [|[x xs] r IH]; intros k; cbn.
    - split; [tauto|]. intros [H|[ys [[] _]]]. exact H.
    - rewrite IH, default_adds_edge. split.
      + intros [[H|[-> H]]|[ys [H I]]]; [now left| |].
        * right. exists xs. tauto.
        * right. exists ys. tauto.
      + intros [H|[ys [[H|H] I]]]; [tauto| |].
        * injection H as -> ->. tauto.
        * right. now exists ys. }
  rewrite H. split.
  - intros [[ys [E _]]|[ys [I J]]]; [discriminate|]. exists ys. split; [|assumption].
    now apply in_get.
  - intros [ys [E I]]. right. exists ys. split; [now apply get_in|assumption].
Qed.

(** * Closures *)

(** The pairs that are not visited yet. *)
Fixpoint left_over (k : relation) (res : list text) : nat :=
  match k with
  | [] => 0
  | (x, ys) :: k => (if mem x res then 0 else length ys) + left_over k res
  end.

Lemma left_over_nil k : left_over k [] = pairs k.
Proof. induction k as [|[x ys] k IH]; cbn; [reflexivity|]. now rewrite IH. Qed.

Lemma left_over_add k res x :
  left_over k (set_add x res) <= left_over k res.
Proof.
  induction k as [|[y ys] k IH]; cbn [left_over]; [lia|].
  destruct (mem y res) eqn:E.
  - assert (F : mem y (set_add x res) = true).
    { apply mem_in. apply set_add_in. right. now apply mem_in. }
    rewrite F. lia.
  - destruct (mem y (set_add x res)); lia.
Qed.

Lemma left_over_visit k res x ys :
  get k x = Some ys -> ~ In x res ->
  length ys + left_over k (set_add x res) <= left_over k res.
Proof.
  induction k as [|[y zs] k IH]; cbn [get left_over]; intros G N; [discriminate|].
  destruct (text_eqb y x) eqn:E.
  - apply text_eqb_eq in E. subst y. assert (F : zs = ys) by congruence. subst zs.
    assert (F : mem x (set_add x res) = true).
    { apply mem_in. apply set_add_in. now left. }
    rewrite F. apply mem_false in N. rewrite N.
    pose proof (left_over_add k res x). lia.
  - specialize (IH G N). destruct (mem y res) eqn:F.
    + assert (F' : mem y (set_add x res) = true).
      { apply mem_in. apply set_add_in. right. now apply mem_in. }
      rewrite F'. lia.
    + apply text_eqb_neq in E. assert (F' : mem y (set_add x res) = false).
      { apply mem_false. rewrite set_add_in. apply mem_false in F. tauto. }
      rewrite F'. lia.
Qed.

Section Closure.
  Variable pop : list text -> option (text * list text).
  Variable P : pop_ok pop.
  Variable r : relation.
  Variable rel : text -> result (list text).
  (** [rel] looks up in [r]; where [r] has nothing, [rel] fails or is empty. *)
  Variable R : forall x, match get r x with
                         | Some ys => rel x = Ok ys
                         | None => rel x = Ok [] \/ exists f, rel x = Fail f
                         end.
  (** The elements that may be looked up, and nothing else comes up. *)
  Variable dom : text -> Prop.
  Variable dom_ok : forall x, dom x -> exists ys, rel x = Ok ys /\ Forall dom ys.

  Definition image (x y : text) : Prop := exists ys, rel x = Ok ys /\ In y ys.

  Lemma rel_size x ys res :
    rel x = Ok ys -> ~ In x res ->
    length ys + left_over r (set_add x res) <= left_over r res.
  Proof.
    intros E N. pose proof (R x) as Rx. destruct (get r x) as [zs|] eqn:G.
    - assert (zs = ys) by congruence. subst. now apply left_over_visit.
    - destruct Rx as [F|[f F]]; [|congruence]. assert (ys = []) by congruence. subst.
      apply left_over_add.
  Qed.

  Lemma closure_loop_ok (good : text -> Prop) rounds : forall unvisited res,
    length unvisited + left_over r res <= rounds ->
    (forall x, In x unvisited -> dom x /\ good x) ->
    (forall x, In x res -> dom x /\ good x) ->
    (forall x y, good x -> image x y -> good y) ->
    (forall x y, In x res -> image x y -> In y unvisited \/ In y res) ->
    NoDup res ->
    exists l, closure_loop pop rel rounds unvisited res = Ok l
      /\ NoDup l
      /\ (forall x, In x l -> good x)
      /\ (forall x, In x unvisited \/ In x res -> In x l)
      /\ (forall x y, In x l -> image x y -> In y l).
  Proof.
    induction rounds as [|rounds IH]; intros unvisited res F U V G C D.
    - destruct unvisited as [|u unvisited]; [|cbn [length] in F; lia]. cbn.
      assert (E : pop [] = None) by (now apply (proj1 P)). rewrite E.
      exists res. repeat split; [assumption|intros x I; now apply V| |].
      + intros x [[]|I]. exact I.
      + intros x y I J. destruct (C x y I J) as [[]|K]. exact K.
    - cbn [closure_loop]. destruct (pop unvisited) as [[current rest]|] eqn:E.
      2:{ apply (proj1 P) in E. subst unvisited.
          exists res. repeat split; [assumption|intros x I; now apply V| |].
          + intros x [[]|I]. exact I.
          + intros x y I J. destruct (C x y I J) as [[]|K]. exact K. }
      apply (proj2 P) in E.
      assert (UE : forall x, In x unvisited <-> x = current \/ In x rest).
      { intros x. split; intros I.
        - apply (Permutation_in _ E) in I. destruct I as [I|I]; [left; congruence|now right].
        - apply (Permutation_in _ (Permutation_sym E)). destruct I as [->|I]; [now left|now right]. }
      apply Permutation_length in E. cbn [length] in E.
      destruct (mem current res) eqn:M.
      + apply mem_in in M. destruct (IH rest res) as [l [L1 [L0 [L2 [L3 L4]]]]].
        * lia.
        * intros x I. apply U. apply UE. now right.
        * assumption.
        * assumption.
        * intros x y I J. destruct (C x y I J) as [K|K]; [|now right].
          apply UE in K as [->|K]; [now right|now left].
        * assumption.
        * exists l. repeat split; try assumption. intros x [I|I]; apply L3; [|now right].
          apply UE in I as [->|I]; [now right|now left].
      + apply mem_false in M.
        destruct (U current) as [DC GC]; [apply UE; now left|].
        destruct (dom_ok _ DC) as [ys [Y1 Y2]]. rewrite Y1. cbn [bind].
        pose proof (rel_size current ys res Y1 M) as SZ.
        pose proof (set_update_length rest ys) as SL.
        assert (IM : forall y, image current y <-> In y ys).
        { intros y. split; [|intros I; now exists ys]. intros [zs [Z I]]. congruence. }
        destruct (IH (set_update rest ys) (set_add current res)) as [l [L1 [L0 [L2 [L3 L4]]]]].
        * lia.
        * intros x I. apply set_update_in in I as [I|I].
          -- apply U. apply UE. now right.
          -- split; [now apply (proj1 (Forall_forall dom ys) Y2)|].
             apply (G current); [assumption|]. now apply IM.
        * intros x I. apply set_add_in in I as [->|I]; [tauto|now apply V].
        * assumption.
        * intros x y I J. apply set_add_in in I as [->|I].
          -- left. apply set_update_in. right. now apply IM.
          -- destruct (C x y I J) as [K|K].
             ++ apply UE in K as [->|K]; [right; apply set_add_in; now left|].
                left. apply set_update_in. now left.
             ++ right. apply set_add_in. now right.
        * now apply set_add_nodup.
        * exists l. repeat split; try assumption. intros x [I|I]; apply L3.
          -- apply UE in I as [->|I]; [right; apply set_add_in; now left|].
             left. apply set_update_in. now left.
          -- right. apply set_add_in. now right.
  Qed.

  Lemma first_images_ok of_set : forall unvisited,
    Forall dom of_set ->
    exists l, first_images rel unvisited of_set = Ok l
      /\ forall y, In y l <-> In y unvisited \/ exists x, In x of_set /\ image x y.
  Proof.
    induction of_set as [|x of_set IH]; intros unvisited D.
    - exists unvisited. split; [reflexivity|]. intros y. split; [tauto|].
      intros [I|[x [[] _]]]. exact I.
    - cbn [first_images]. inversion D as [|? ? DX DR]; subst.
      destruct (dom_ok _ DX) as [ys [Y1 Y2]]. rewrite Y1. cbn [bind].
      destruct (IH (set_update unvisited ys) DR) as [l [L1 L2]].
      exists l. split; [assumption|]. intros y. rewrite L2, set_update_in. split.
      + intros [[I|I]|[u [I J]]]; [tauto| |].
        * right. exists x. split; [now left|now exists ys].
        * right. exists u. split; [now right|assumption].
      + intros [I|[u [[ -> |I] J]]]; [tauto| |].
        * destruct J as [zs [Z J]]. assert (zs = ys) by congruence. subst. tauto.
        * right. now exists u.
  Qed.

  Lemma closure_image_ok of_set :
    Forall dom of_set ->
    exists l, closure_image pop rel (pairs r) of_set = Ok l
      /\ NoDup l
      /\ forall y, In y l <-> exists x, In x of_set /\ clos_trans _ image x y.
  Proof.
    intros D. unfold closure_image.
    destruct (first_images_ok of_set [] D) as [un [U1 U2]]. rewrite U1. cbn [bind].
    set (good := fun y => exists x, In x of_set /\ clos_trans _ image x y).
    destruct (closure_loop_ok good (length un + pairs r) un []) as [l [L1 [L0 [L2 [L3 L4]]]]].
    - rewrite left_over_nil. lia.
    - intros y I. apply U2 in I as [[]|[x [I J]]]. split.
      + destruct J as [ys [J K]].
        destruct (dom_ok x) as [zs [Z1 Z2]];
          [now apply (proj1 (Forall_forall dom of_set) D)|].
        assert (zs = ys) by congruence. subst.
        now apply (proj1 (Forall_forall dom ys) Z2).
      + exists x. split; [assumption|now constructor].
    - easy.
    - intros x y [u [I J]] K. exists u. split; [assumption|].
      apply t_trans with x; [assumption|now constructor].
    - easy.
    - constructor.
    - exists l. split; [assumption|]. split; [assumption|]. intros y. split; [apply L2|].
      intros [x [I J]]. apply clos_trans_tn1 in J. induction J as [y J|y z J K IH].
      + apply L3. left. apply U2. right. now exists x.
      + now apply (L4 y z).
  Qed.
End Closure.
