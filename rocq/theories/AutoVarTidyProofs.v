(** Automatic variables: what is left of the expressions, and that named parts become variables. *)
From Coq Require Import String List Bool Arith Lia Relations Permutation.
From Verif Require Import SignatureModel SignatureSpec FunctorModel FunctorSpec FunctorProofs FunctorCallProofs AutoVarModel AutoVarSpec AutoVarProofs AutoVarTopProofs.
Import ListNotations.
Local Open Scope string_scope.
Local Open Scope nat_scope.
Local Open Scope list_scope.

Lemma prefix_append p : forall x, String.prefix p (p ++ x) = true.
Proof. induction p as [|c p IH]; cbn; intros x; [destruct x; reflexivity|]. destruct (Ascii.ascii_dec c c); [apply IH|contradiction]. Qed.
Lemma numbered_prefix p k : String.prefix p (numbered p k) = true.
Proof. unfold numbered. apply prefix_append. Qed.

Section Tidy.
Variables (V op : Type).
Local Notation expr := (expr V op).
Local Notation item := (item V op).
Local Notation functor := (functor V op).
Variable same : expr -> expr -> bool.
Variable kind : op -> op_kind.
Variables is_slice is_simple is_unspecified : V -> bool.
Variable text_of : V -> string.
Variable rank : V -> nat.
Variable num : nat -> V.
Variable implode : V -> V.
Variable op_explode : op.
Variable stored : V -> item.
Hypothesis same_spec : forall x y, same x y = true <-> x = y.
Local Notation state := (AutoVarModel.state V op).
Local Notation vars := (AutoVarModel.vars V op).
Local Notation aux := (AutoVarModel.aux V op).
Local Notation var := (AutoVarModel.var V op).

(** ** The post order has all parts *)
Definition has_args (l : list expr) : Prop := forall o args a, In (Call o args) l -> In a args -> In a l.
Definition extends (l l' : list expr) : Prop := has_args l -> has_args l' /\ incl l l'.
Lemma extends_trans l l' l'' : extends l l' -> extends l' l'' -> extends l l''.
Proof. intros A B H. destruct (A H) as [H' I]. destruct (B H') as [H'' I']. split; [exact H''|]. intros x X. apply I', I, X. Qed.
Lemma fold_extends (F : list expr -> expr -> list expr) (args : list expr) : Forall (fun a => forall l, extends l (F l a) /\ (has_args l -> In a (F l a))) args ->
  forall l, extends l (fold_left F args l) /\ (has_args l -> incl args (fold_left F args l)).
Proof.
  induction 1 as [|a args HA F' IH]; intros l; cbn.
  - split; [intros H; split; [exact H|apply incl_refl]|intros _ x []].
  - destruct (HA l) as [E I]. destruct (IH (F l a)) as [E' I']. split; [apply (extends_trans _ _ _ E E')|].
    intros H x [<-|X].
    + destruct (E' (proj1 (E H))) as [_ IN]. apply IN, I, H.
    + apply I'; [apply (proj1 (E H))|exact X].
Qed.
Lemma leaf_extends e l : deps V op e = [] -> (forall o args, e <> Call o args) -> extends l (l ++ [e]).
Proof.
  intros _ NC H. split; [|intros x X; apply in_or_app; left; exact X]. intros o args a I IA. apply in_app_or in I.
  destruct I as [I|[I|[]]]; [|destruct (NC o args I)]. apply in_or_app. left. exact (H o args a I IA).
Qed.
Lemma post_complete : forall e l, extends l (post V op same e l) /\ (has_args l -> In e (post V op same e l)).
Proof.
  assert (LEAF : forall e l, (forall o args, e <> Call o args) -> post V op same e l = (if mem V op same e l then l else l ++ [e]) ->
     extends l (post V op same e l) /\ (has_args l -> In e (post V op same e l))).
  { intros e l NC ->. destruct (mem V op same e l) eqn:M.
    - apply (mem_in V op same same_spec) in M. split; [intros H; split; [exact H|apply incl_refl]|auto].
    - split; [|intros _; apply in_or_app; right; left; reflexivity]. apply leaf_extends; [|exact NC]. destruct e; try reflexivity. destruct (NC o args eq_refl). }
  induction e as [v|c n| |k|k|o args IH] using (expr_rect' V op); intros l; try (apply LEAF; [intros; discriminate|reflexivity]).
  cbn [post]. destruct (mem V op same (Call o args) l) eqn:M.
  - apply (mem_in V op same same_spec) in M. split; [intros H; split; [exact H|apply incl_refl]|auto].
  - destruct (fold_extends (fun l a => post V op same a l) args IH l) as [E I]. split; [|intros _; apply in_or_app; right; left; reflexivity].
    intros H. destruct (E H) as [H' IN]. split; [|intros x X; apply in_or_app; left; apply IN, X].
    intros o' args' a IA IB. apply in_app_or in IA. apply in_or_app. left. destruct IA as [IA|[IA|[]]]; [exact (H' o' args' a IA IB)|].
    injection IA as -> ->. apply (I H). exact IB.
Qed.
Lemma post_order_complete roots r d : In r roots -> part d r -> In d (post_order V op same roots).
Proof.
  intros IR P. destruct (fold_extends (fun l e => post V op same e l) roots) with (l := @nil expr) as [E I].
  { apply Forall_forall. intros e _ l. apply post_complete. }
  assert (H0 : has_args []) by (intros o args a []). destruct (E H0) as [HA _]. specialize (I H0 r IR).
  change (fold_left _ roots []) with (post_order V op same roots) in HA, I. clear E H0 IR.
  induction P as [|o args a IA P IH]; [exact I|]. apply IH. exact (HA o args a I IA).
Qed.

(** ** The state *)
Hypothesis Hexplode : kind op_explode <> KName.
Hypothesis Hnum : forall k, is_simple (num k) = true.
Hypothesis Hnumq : forall k q, stored (num k) <> Quote q.
Variable vs0 : list (string * item).
Local Notation old := (old V op vs0).
(** A literal that may stay *)
Definition good (v : V) : Prop := is_slice v = true -> is_simple v = true /\ forall q, stored v <> Quote q.
Definition clean (e : expr) : Prop :=
  forall d, part d e -> match d with Call o _ => kind o <> KName | Lit v => good v | _ => True end.
Lemma clean_tidy e : clean e -> tidy kind is_slice is_simple e.
Proof. intros C d P. specialize (C d P). destruct d; auto. intros S. apply C. exact S. Qed.
Lemma clean_leaf e : (forall o args, e <> Call o args) -> (forall v, e = Lit v -> good v) -> clean e.
Proof. intros NC G d P. inversion P; subst; [|destruct (NC o args eq_refl)]. destruct e; auto. destruct (NC o args eq_refl). Qed.
Lemma clean_call o args : kind o <> KName -> (forall a, In a args -> clean a) -> clean (Call o args).
Proof. intros K A d P. inversion P as [|? ? a IA PA]; subst; [exact K|]. exact (A a IA d PA). Qed.
Lemma clean_var n : clean (var n).
Proof. apply clean_leaf; intros; discriminate. Qed.
Lemma clean_explode n k : clean (Call op_explode [var n; Lit (num k)]).
Proof.
  apply clean_call; [exact Hexplode|]. intros a [<-|[<-|[]]]; [apply clean_var|]. apply clean_leaf; [intros; discriminate|].
  intros v E. injection E as <-. intros _. split; [apply Hnum|apply Hnumq].
Qed.

Definition aux_shape (e : expr) : Prop :=
  exists m, String.prefix "_aux" m = true /\ ~ old m /\ (e = var m \/ exists k, e = Call op_explode [var m; Lit (num k)]).
Lemma aux_shape_clean e : aux_shape e -> clean e.
Proof. intros (m & _ & _ & [->|(k & ->)]); [apply clean_var|apply clean_explode]. Qed.
Record ok (s : state) : Prop := {
  o_vars : forall x e, ~ old x -> lookup x (vars s) = Some (Quote e) -> clean e;
  o_old : forall x, old x -> lookup x (vars s) <> None;
  o_aux : forall e, In e (aux s) -> aux_shape e }.
(** Variables that are not auxiliary stay *)
Definition keeps (s s' : state) : Prop :=
  forall n, String.prefix "_aux" n = false -> lookup n (vars s) <> None -> lookup n (vars s') <> None.
Lemma keeps_refl s : keeps s s. Proof. intros n _ H. exact H. Qed.
Lemma keeps_trans s s' s'' : keeps s s' -> keeps s' s'' -> keeps s s''.
Proof. intros A B n P H. apply B; [exact P|]. apply A; assumption. Qed.
Definition fine (s : state) (t : expr) (s' : state) : Prop := ok s' /\ keeps s s' /\ clean t.

Lemma unique_same p s n s' : unique V op p s = Done (n, s') -> vars s' = vars s /\ aux s' = aux s /\ lookup n (vars s) = None /\ exists k, n = numbered p k.
Proof.
  unfold unique. destruct (free_number V op _ p _ _) as [k|] eqn:F; [|discriminate]. intros E. injection E as <- <-. cbn.
  apply free_number_spec in F. repeat (split; [try reflexivity|]); [|eauto]. apply F.
Qed.
Lemma add_fine n i s : ok s -> (forall q, i = Quote q -> clean q) -> ok (add_var V op n i s) /\ keeps s (add_var V op n i s).
Proof.
  intros [A A' B] C. split.
  - split; [|intros x O; cbn; destruct (String.eqb x n); [discriminate|exact (A' x O)]|exact B]. cbn. intros x e O L. destruct (String.eqb x n); [injection L as ->; auto|exact (A x e O L)].
  - intros x P H. cbn. destruct (String.eqb x n); [discriminate|exact H].
Qed.
Lemma ok_same s s' : vars s' = vars s -> aux s' = aux s -> ok s -> ok s' /\ keeps s s'.
Proof.
  intros E1 E2 [A A' B]. split; [split; [rewrite E1; exact A|rewrite E1; exact A'|rewrite E2; exact B]|]. intros n _ H. rewrite E1. exact H.
Qed.
Lemma make_aux_fine need e s t s' : ok s -> clean e -> make_aux V op need e s = Done (t, s') -> fine s t s'.
Proof.
  intros O C E. unfold make_aux in E. destruct (negb need || is_var V op e).
  - assert (e = t) by congruence. assert (s = s') by congruence. subst. split; [exact O|]. split; [apply keeps_refl|exact C].
  - destruct (unique V op "_aux" s) as [[n s1]| |] eqn:U; cbn in E; try discriminate. destruct (unique_same _ _ _ _ U) as (E1 & E2 & _).
    destruct (ok_same s s1 E1 E2 O) as [O1 K1].
    assert (t = var n) by congruence. assert (s' = add_var V op n (Quote e) s1) by congruence. subst.
    destruct (add_fine n (Quote e) s1 O1) as [O2 K2]; [intros q Q; injection Q as <-; exact C|].
    split; [exact O2|]. split; [apply (keeps_trans _ _ _ K1 K2)|apply clean_var].
Qed.
(** The stored forms of the slices of f are not quotes *)
Definition plain_store (v : V) : Prop := forall q, (if rank v =? 0 then stored v else stored (implode v)) <> Quote q.
Lemma extract_slice_fine v shared s t s' : ok s -> plain_store v ->
  extract_slice V op rank num implode op_explode stored v shared s = Done (t, s') -> fine s t s'.
Proof.
  intros O PS E. unfold extract_slice in E.
  destruct (unique V op "_aux" s) as [[n s1]| |] eqn:U; cbn [then_] in E; try discriminate. destruct (unique_same _ _ _ _ U) as (E1 & E2 & FR & k & EN).
  destruct (ok_same s s1 E1 E2 O) as [O1 K1].
  set (i := if rank v =? 0 then stored v else stored (implode v)).
  set (e := if rank v =? 0 then var n else Call op_explode [var n; Lit (num (rank v))]).
  assert (E' : Done (e, if shared then add_var V op n i s1 else mkState V op (vars (add_var V op n i s1)) (AutoVarModel.counters V op s1) (e :: aux s1)) = Done (t, s')).
  { rewrite <- E. unfold e, i. destruct (rank v =? 0); reflexivity. }
  clear E. assert (e = t) by congruence. subst t.
  assert (SH : aux_shape e).
  { exists n. split; [rewrite EN; apply numbered_prefix|]. split; [intros OO; exact (o_old s O n OO FR)|]. unfold e. destruct (rank v =? 0); eauto. }
  destruct (add_fine n i s1 O1) as [O2 K2]; [intros q Q; destruct (PS q Q)|].
  assert (KK : keeps s (add_var V op n i s1)) by apply (keeps_trans _ _ _ K1 K2).
  destruct shared; [assert (s' = add_var V op n i s1) as -> by congruence|
    assert (s' = mkState V op (vars (add_var V op n i s1)) (AutoVarModel.counters V op s1) (e :: aux s1)) as -> by congruence].
  - split; [exact O2|]. split; [exact KK|apply aux_shape_clean; exact SH].
  - split; [|split; [exact KK|apply aux_shape_clean; exact SH]]. destruct O2 as [A A' B]. split; [exact A|exact A'|].
    cbn. intros e' [<-|IE]; [exact SH|apply B; exact IE].
Qed.
Lemma extract_named_fine n child s t s' : ok s -> clean child -> String.prefix "_aux" n = false ->
  extract_named V op same is_slice is_simple stored n child s = Done (t, s') -> fine s t s' /\ lookup n (vars s') <> None.
Proof.
  intros O C NP E. unfold extract_named in E.
  destruct (if taken V op n (vars s) then unique V op n s else Done (n, s)) as [[n1 s1]| |] eqn:U; cbn [then_] in E; try discriminate.
  assert (H : vars s1 = vars s /\ aux s1 = aux s /\ (n1 = n \/ lookup n (vars s1) <> None)).
  { destruct (taken V op n (vars s)) eqn:T.
    - destruct (unique_same _ _ _ _ U) as (A & B & _). repeat (split; [assumption|]). right. rewrite A. unfold taken in T. destruct (lookup n (vars s)); congruence.
    - assert (n1 = n) by congruence. assert (s1 = s) by congruence. subst. auto. }
  destruct H as (E1 & E2 & HN). destruct (ok_same s s1 E1 E2 O) as [O1 K1].
  assert (ADD : forall i s2, (n1 = n \/ lookup n (vars s2) <> None) -> lookup n (vars (add_var V op n1 i s2)) <> None).
  { intros i s2 H. cbn. destruct (String.eqb_spec n n1) as [->|N]; [discriminate|]. destruct H; [congruence|assumption]. }
  assert (Q : forall i, (forall q, i = Quote q -> clean q) -> Done (var n1, add_var V op n1 i s1) = Done (t, s') -> fine s t s' /\ lookup n (vars s') <> None).
  { intros i Q D. assert (t = var n1) by congruence. assert (s' = add_var V op n1 i s1) by congruence. subst.
    destruct (add_fine n1 i s1 O1 Q) as [O2 K2]. split; [|apply ADD; exact HN]. split; [exact O2|]. split; [apply (keeps_trans _ _ _ K1 K2)|apply clean_var]. }
  destruct (mem V op same child (aux s1)) eqn:M.
  - apply (mem_in V op same same_spec) in M. destruct (o_aux s1 O1 child M) as (m & PM & OM & SH).
    assert (NM : sorted_names (names_in "V" child) = [m]) by (destruct SH as [->|(k & ->)]; reflexivity).
    rewrite NM in E. destruct (lookup m (vars s1)) as [i|] eqn:LM; [|discriminate].
    set (s2 := mkState V op ((n1, i) :: erase V op m (vars s1)) (AutoVarModel.counters V op s1) (filter (fun e => negb (same child e)) (aux s1))) in *.
    assert (CR : clean (rename V op m n1 child)).
    { destruct SH as [->|(k & ->)]; cbn; rewrite String.eqb_refl; [apply clean_var|apply clean_explode]. }
    assert (O2 : ok s2).
    { destruct O1 as [A A' B]. unfold s2. split; cbn [AutoVarModel.vars AutoVarModel.aux lookup].
      - intros x e OX L. destruct (String.eqb x n1); [|rewrite erase_lookup in L; destruct (String.eqb x m); [discriminate|exact (A x e OX L)]].
        injection L as ->. exact (A m e OM LM).
      - intros x OX. destruct (String.eqb x n1); [discriminate|]. rewrite erase_lookup.
        destruct (String.eqb_spec x m) as [->|]; [contradiction|]. apply A'. exact OX.
      - intros e IE. apply filter_In in IE. apply B. apply IE. }
    assert (K2 : keeps s1 s2).
    { intros x PX H. cbn. destruct (String.eqb x n1); [discriminate|]. rewrite erase_lookup.
      destruct (String.eqb_spec x m) as [->|]; [congruence|exact H]. }
    destruct (make_aux_fine true _ s2 t s' O2 CR E) as (O3 & K3 & C3). split.
    + split; [exact O3|]. split; [|exact C3]. apply (keeps_trans _ s1); [exact K1|]. apply (keeps_trans _ _ _ K2 K3).
    + apply (K3 n NP). cbn. destruct (String.eqb_spec n n1) as [->|N]; [discriminate|]. rewrite erase_lookup.
      destruct (String.eqb_spec n m) as [->|]; [congruence|]. destruct HN; [congruence|assumption].
  - destruct child; try (apply (Q _) in E; [exact E|intros q QQ; injection QQ as <-; exact C]).
    destruct (is_slice v) eqn:IS; [|apply (Q _) in E; [exact E|intros q QQ; injection QQ as <-; exact C]].
    destruct (is_simple v) eqn:SI; [|discriminate]. apply (Q _) in E; [exact E|]. intros q QQ.
    destruct (C (Lit v) (PartHere V op _) IS) as [_ NQ]. destruct (NQ q QQ).
Qed.

(** ** The nodes *)
Variable extra : expr -> bool.
Variable tags : list (expr * tag V op).
Variable f : functor.
Hypothesis Hnamed : named_well kind text_of f.
Hypothesis Hplain : plain_names kind is_slice extra f.
Hypothesis Hliteral : forall v, is_slice v = true -> part_of (Lit v) f -> plain_store v.
Hypothesis simple_items : forall v, is_simple v = true -> rank v = 0.
Local Notation needed := (needed V op kind extra).
Local Notation transform_node := (transform_node V op same kind is_slice is_simple is_unspecified text_of rank num implode op_explode stored extra tags).
Local Notation transform := (transform V op same kind is_slice is_simple is_unspecified text_of rank num implode op_explode stored extra tags).

(** A new expression is clean; literals that nobody wants stay; named parts have a variable *)
Definition done (s : state) (e t : expr) : Prop :=
  clean t
  /\ (forall v, e = Lit v -> is_slice v = false -> extra e = false -> t = e)
  /\ (forall o x v, e = Call o [x; Lit v] -> kind o = KName -> lookup (text_of v) (vars s) <> None).

Lemma literal_good v : part_of (Lit v) f -> is_slice v && negb (is_simple v) = false -> good v.
Proof.
  intros P C S. rewrite S in C. destruct (is_simple v) eqn:SI; [|discriminate]. split; [reflexivity|]. intros q Q.
  apply (Hliteral v S P q). rewrite (simple_items v SI). exact Q.
Qed.

Lemma transform_node_fine s e new t s' : ok s -> part_of e f ->
  match e with
  | Call o args => exists args', new = Call o args' /\ (forall a, In a args' -> clean a)
                   /\ (forall x v, args = [x; Lit v] -> kind o = KName -> exists x', args' = [x'; Lit v])
  | _ => new = e
  end ->
  transform_node e new s = Done (t, s') -> ok s' /\ keeps s s' /\ done s' e t.
Proof.
  intros O P N E.
  assert (LEAF : (forall o args, e <> Call o args) -> (forall v, e = Lit v -> good v) -> make_aux V op (needed e) e s = Done (t, s') ->
            ok s' /\ keeps s s' /\ done s' e t).
  { intros NC G M. destruct (make_aux_fine _ e s t s' O (clean_leaf e NC G) M) as (O1 & K1 & C1). split; [exact O1|]. split; [exact K1|].
    split; [exact C1|]. split; [|intros o x v Q; destruct (NC _ _ Q)]. intros v EV _ X. unfold make_aux, AutoVarModel.needed in M.
    rewrite X, EV in M. cbn in M. congruence. }
  destruct e as [v|c n| |k|k|o args]; try subst new; try (apply LEAF; [intros; discriminate|intros; discriminate|exact E]).
  - cbn in E. destruct (is_slice v && negb (is_simple v)) eqn:C.
    + match type of E with then_ ?X _ = _ => destruct X as [[t1 s1]| |] eqn:X1 end; cbn [then_] in E; try discriminate.
      apply andb_true_iff in C. destruct C as [IS _].
      destruct (extract_slice_fine v _ s t1 s1 O (Hliteral v IS P) X1) as (O1 & K1 & C1).
      destruct (make_aux_fine _ t1 s1 t s' O1 C1 E) as (O2 & K2 & C2). split; [exact O2|]. split; [apply (keeps_trans _ _ _ K1 K2)|].
      split; [exact C2|]. split; [intros v' EV NS; congruence|intros; discriminate].
    + apply LEAF; [intros; discriminate| |exact E]. intros v' EV. injection EV as <-. apply literal_good; assumption.
  - destruct N as (args' & -> & CA & NA).
    assert (FIN : kind o <> KName -> fine s t s' -> ok s' /\ keeps s s' /\ done s' (Call o args) t).
    { intros NK (O1 & K1 & C1). split; [exact O1|]. split; [exact K1|]. split; [exact C1|]. split; [intros; discriminate|].
      intros o' x v Q K. injection Q as -> ->. contradiction. }
    assert (EC : kind o <> KName -> extract_call V op same kind is_slice is_simple text_of stored (is_shared V op same tags (Call o args)) (needed (Call o args)) o args' s = Done (t, s') -> fine s t s').
    { intros NK X. unfold extract_call in X. destruct (negb (needed (Call o args)) && negb (is_shared V op same tags (Call o args))).
      - assert (t = Call o args') by congruence. assert (s' = s) by congruence. subst. split; [exact O|]. split; [apply keeps_refl|apply clean_call; assumption].
      - assert (X' : make_aux V op true (Call o args') s = Done (t, s')) by (destruct (kind o); try contradiction; exact X).
        apply (make_aux_fine _ _ _ _ _ O (clean_call o args' NK CA) X'). }
    unfold AutoVarModel.transform_node in E. destruct (kind o) eqn:K.
    + apply FIN; [discriminate|]. destruct args' as [|val [|[u| | | | |] [|? ?]]]; try (apply EC; [discriminate|exact E]).
      destruct (literal_or_aux V op same is_slice val s && is_unspecified u); [|apply EC; [discriminate|exact E]].
      apply (make_aux_fine _ val _ _ _ O (CA val (or_introl eq_refl)) E).
    + apply FIN; [discriminate|]. destruct args' as [|val rest]; [apply EC; [discriminate|exact E]|].
      destruct (literal_or_aux V op same is_slice val s); [|apply EC; [discriminate|exact E]].
      apply (make_aux_fine _ val _ _ _ O (CA val (or_introl eq_refl)) E).
    + destruct (Hnamed o args K P) as (x & v & -> & _ & NP). destruct (NA x v eq_refl eq_refl) as (x' & ->).
      unfold extract_call in E. rewrite K in E. unfold AutoVarModel.needed, is_name in E. rewrite K in E. cbn [negb andb orb] in E.
      destruct (extract_named_fine (text_of v) x' s t s' O (CA x' (or_introl eq_refl)) NP E) as ((O1 & K1 & C1) & LN).
      split; [exact O1|]. split; [exact K1|]. split; [exact C1|]. split; [intros; discriminate|].
      intros o' y w Q _. injection Q as -> -> ->. exact LN.
    + apply FIN; [discriminate|]. apply EC; [discriminate|exact E].
Qed.

Lemma done_keeps s s' e t : part_of e f -> keeps s s' -> done s e t -> done s' e t.
Proof.
  intros P K (A & B & C). split; [exact A|]. split; [exact B|]. intros o x v E KN. subst e. apply K; [|exact (C o x v eq_refl KN)].
  destruct (Hnamed o _ KN P) as (x' & v' & Q & _ & NP). injection Q as -> ->. exact NP.
Qed.
Lemma part_of_below o args a : part_of (Call o args) f -> In a args -> part_of a f.
Proof.
  intros (x & e & L & P) I. exists x, e. split; [exact L|]. clear L. remember (Call o args) as c eqn:EC. revert EC.
  induction P as [|o' args' a' I' P IH]; intros EC; [subst; apply (PartBelow V op a o args a I); constructor|].
  apply (PartBelow V op a o' args' a' I'). apply IH. exact EC.
Qed.

Lemma transform_fine nodes : forall l s l' s', ok s -> (forall e, In e nodes -> part_of e f) ->
  (forall e t, In (e, t) l -> part_of e f /\ done s e t) -> transform nodes l s = Done (l', s') ->
  ok s' /\ (forall e t, In (e, t) l' -> part_of e f /\ done s' e t) /\ (forall e, In e nodes \/ In e (map fst l) -> In e (map fst l')).
Proof.
  induction nodes as [|e nodes IH]; intros l s l' s' O P LL E; cbn in E.
  - assert (l = l') by congruence. assert (s = s') by congruence. subst. split; [exact O|]. split; [exact LL|]. intros e [[]|H]. exact H.
  - destruct (with_new_args V op same e l) as [new|] eqn:N; [|discriminate].
    match type of E with then_ ?X _ = _ => destruct X as [[t1 s1]| |] eqn:X1 end; cbn [then_] in E; try discriminate.
    pose proof (P e (or_introl eq_refl)) as PE.
    destruct (transform_node_fine s e new t1 s1 O PE) as (O1 & K1 & D1); [|exact X1|].
    { destruct e; cbn in N; try congruence. destruct (all_new V op same args l) as [ts|] eqn:A; [|discriminate]. injection N as <-.
      apply (all_new_ok V op same same_spec) in A. exists ts. split; [reflexivity|]. split.
      - intros a I. destruct (Forall2_In_r _ _ _ a A I) as (b & _ & IB). apply (LL b a IB).
      - intros x v -> K. inversion A as [|? x' ? ? _ A1]; subst. inversion A1 as [|? v' ? ? IV A2]; subst. inversion A2; subst.
        exists x'. destruct (Hplain o x v K PE) as [S X]. destruct (LL (Lit v) v' IV) as (_ & _ & B & _). rewrite (B v eq_refl S X). reflexivity. }
    destruct (IH ((e, t1) :: l) s1 l' s' O1) as (O2 & D2 & C2); [intros x I; apply P; right; exact I| |exact E|].
    { intros e' t' [Q|I]; [injection Q as <- <-; split; [exact PE|exact D1]|]. destruct (LL e' t' I) as [PE' D']. split; [exact PE'|].
      apply (done_keeps s s1); assumption. }
    split; [exact O2|]. split; [exact D2|]. intros x [[->|I]|I]; apply C2; [right; left; reflexivity|left; exact I|right; right; exact I].
Qed.
End Tidy.

Section Main.
Variables (V op : Type).
Local Notation expr := (expr V op).
Local Notation item := (item V op).
Local Notation functor := (functor V op).
Variable same : expr -> expr -> bool.
Variable kind : op -> op_kind.
Variables is_slice is_simple is_unspecified : V -> bool.
Variable text_of : V -> string.
Variable rank : V -> nat.
Variable num : nat -> V.
Variable implode : V -> V.
Variable op_explode : op.
Variable stored : V -> item.
Variable self_default : V.
Variable as_object : list (param V) -> V.
Variable arrange : list (string * item) -> list (string * item).
Variables (bag : Type) (eval_op : op -> list (option V) -> option V) (with_bag : bag -> V -> V).
Variable b : bag.
Hypothesis same_spec : forall x y, same x y = true <-> x = y.
Hypothesis simple_items : forall v, is_simple v = true -> rank v = 0.
Hypothesis arrange_spec : forall l, Permutation l (arrange l).
Variable f : functor.
Hypothesis Hvalid : valid f.
Hypothesis Hclosed : closed f.
Hypothesis Hlocated : located kind f.
Hypothesis Hnamed : named_well kind text_of f.
Hypothesis Hstorable : storable_literals is_slice rank num implode op_explode stored eval_op with_bag b f.
Variable extra : expr -> bool.
Hypothesis Hplain : plain_names kind is_slice extra f.
Hypothesis Hexplode : kind op_explode <> KName.
Hypothesis Hnum : forall k, is_simple (num k) = true.
Hypothesis Hnums : forall k, storable rank num implode op_explode stored eval_op with_bag b (num k).
Local Notation auto := (auto_variables V op same kind is_slice is_simple is_unspecified text_of rank num implode op_explode stored self_default as_object arrange).

Lemma plain_storable v : storable rank num implode op_explode stored eval_op with_bag b v -> plain_store V op rank implode stored v.
Proof. intros S q. exact (not_quote V op rank num implode op_explode stored bag eval_op with_bag b v q S). Qed.
Lemma roots_iff r : In r (roots_of V op f) <-> exists x, x <> "__signature__" /\ lookup x f = Some (Quote r).
Proof.
  unfold roots_of. rewrite in_map_iff. split.
  - intros ([x r'] & E & I). cbn in E. subst r'. apply expressions_in, variables_in in I. eauto.
  - intros (x & N & L). exists (x, r). split; [reflexivity|]. apply expressions_in, variables_in. auto.
Qed.
Lemma part_of_root d : part_of d f <-> exists r, In r (roots_of V op f) /\ part d r.
Proof.
  split.
  - intros (x & e & L & P). exists e. split; [|exact P]. apply roots_iff. exists x. split; [|exact L]. intros ->.
    destruct Hvalid as (_ & _ & _ & _ & sv & ps & LS & _). congruence.
  - intros (r & I & P). apply roots_iff in I. destruct I as (x & _ & L). exists x, r. auto.
Qed.

Lemma auto_fine g : auto f extra = Done g ->
  (forall x e, lookup x g = Some (Quote e) -> tidy kind is_slice is_simple e)
  /\ (forall o x v, kind o = KName -> part_of (Call o [x; Lit v]) f -> lookup (text_of v) g <> None).
Proof.
  intros E.
  destruct (auto_made V op same kind is_slice is_simple is_unspecified text_of rank num implode op_explode stored self_default as_object arrange
    bag eval_op with_bag b same_spec simple_items arrange_spec f Hvalid Hclosed Hlocated Hnamed Hstorable extra g E)
    as (_ & (l & s & (T & R) & KV) & _).
  assert (HQ : forall k q, stored (num k) <> Quote q).
  { intros k q Q. apply (plain_storable (num k) (Hnums k) q). rewrite (simple_items (num k) (Hnum k)). exact Q. }
  assert (HL : forall v, is_slice v = true -> part_of (Lit v) f -> plain_store V op rank implode stored v).
  { intros v S P. apply plain_storable. apply Hstorable; assumption. }
  assert (HO : ok V op kind is_slice is_simple num op_explode stored (variables V op f) (mkState V op (variables V op f) [] [])).
  { split; cbn; [|auto|intros e []]. intros x e NO L. destruct NO. unfold old. congruence. }
  assert (HP : forall e, In e (post_order V op same (roots_of V op f)) -> part_of e f).
  { intros e I. apply post_order_parts in I. apply part_of_root. exact I. }
  destruct (transform_fine V op same kind is_slice is_simple is_unspecified text_of rank num implode op_explode stored same_spec Hexplode Hnum HQ
              (variables V op f) extra _ f Hnamed Hplain HL simple_items _ [] _ l s HO HP (fun e t H => match H with end) T) as (O & D & C).
  split.
  + intros x e L. apply (clean_tidy V op kind is_slice is_simple stored).
      destruct (R x e L) as [I|[NO LV]]; [|exact (o_vars _ _ _ _ _ _ _ _ _ _ O x e NO LV)].
      apply in_map_iff in I. destruct I as ([e0 t] & Q & I). cbn in Q. subst t. apply (D e0 e I).
    + intros o x v K P. destruct (Hnamed o _ K P) as (x' & v' & Q & NS & _). injection Q as -> ->. apply KV; [exact NS|].
      destruct (proj1 (part_of_root _) P) as (r & IR & PR).
      pose proof (C _ (or_introl (post_order_complete V op same same_spec _ r _ IR PR))) as I. apply in_map_iff in I.
      destruct I as ([e0 t] & Q & I). cbn in Q. subst e0. destruct (D _ t I) as (_ & _ & _ & N). exact (N o x' v' eq_refl K).
Qed.
End Main.
