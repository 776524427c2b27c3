(** Which allocations a layer has attributes of, and which kinds of allocations its
    lists and dicts are of: merges and updates bring no others than those of the
    layers merged. *)
From Coq Require Import String NArith ZArith List Bool Arith Lia.
From Verif Require Import ObjectIdModel SchemaModel ItemModel DictModel
  SourceModel SourceSpec BagModel CollProofs BagProofs MergeModel MergeFold MergeLayerProofs.
Import ListNotations.
Local Open Scope nat_scope.

Definition kinds_in (l : layer) : Prop :=
  (forall a v, a_find oid_eq_dec (lists l) a = Some v -> is_list a = true) /\
  (forall a v, a_find oid_eq_dec (dicts l) a = Some v -> is_dict a || is_schema a = true).
Definition big_in (T : ObjectId -> Prop) (l : layer) : Prop := forall k, a_find key_dec (big l) k <> None -> T (fst k).
Definition keys_in (T : ObjectId -> Prop) (l : layer) : Prop := big_in T l /\ kinds_in l.
Definition ch_keys (T : ObjectId -> Prop) (ch : list (nat * layer)) : Prop := forall x l, In (x, l) ch -> keys_in T l.
Lemma keys_set T l k c : keys_in T l -> T (fst k) -> keys_in T (set_big l k c).
Proof.
  intros [K Q] Tk. split; [|exact Q]. intros k' F. unfold set_big in F. cbn [big] in F. rewrite a_find_set in F. destruct (key_dec k k') as [<-|]; auto.
Qed.
Lemma keys_same T l l' : big l' = big l -> kinds_in l' -> keys_in T l -> keys_in T l'.
Proof. intros E Q [K _]. split; auto. intros k F. rewrite E in F. auto. Qed.
Lemma kinds_same l l' : lists l' = lists l -> dicts l' = dicts l -> kinds_in l -> kinds_in l'.
Proof. unfold kinds_in. intros -> ->. auto. Qed.
Lemma kinds_set_lists l a v : kinds_in l -> is_list a = true -> kinds_in (set_lists l a v).
Proof.
  intros [A B] E. split; [|exact B]. intros a' v'. cbn. rewrite a_find_set. destruct (oid_eq_dec a a') as [<-|]; eauto.
Qed.
Lemma kinds_set_dicts l a v : kinds_in l -> is_dict a || is_schema a = true -> kinds_in (set_dicts l a v).
Proof.
  intros [A B] E. split; [exact A|]. intros a' v'. cbn. rewrite a_find_set. destruct (oid_eq_dec a a') as [<-|]; eauto.
Qed.
Lemma fold_err_inv {A S} (P : S -> Prop) (f : S -> A -> S * bool) w : (forall s x, P s -> In x w -> P (fst (f s x))) ->
  forall s, P s -> P (fst (fold_err f w s)).
Proof.
  intros Step s I. unfold fold_err.
  assert (X : forall (w' : list A) (r : S * bool), (forall x, In x w' -> In x w) -> P (fst r) -> P (fst (fold_left (fun (q : S * bool) => let '(s, err) := q in fun (x : A) => if err then (s, err) else f s x) w' r))).
  { induction w' as [|x w' IH]; intros [s0 err] Sub P0; auto. cbn [fold_left]. apply IH; [intros; apply Sub; now right|].
    destruct err; auto. apply Step; auto. apply Sub. now left. }
  now apply X.
Qed.
Lemma fold_left_inv {A S} (P : S -> Prop) (f : S -> A -> S) w : (forall s x, P s -> In x w -> P (f s x)) ->
  forall s, P s -> P (fold_left f w s).
Proof.
  induction w as [|x w IH]; intros Step s I; auto. cbn [fold_left]. apply IH; [intros s0 y P0 I0; apply Step; auto; now right|].
  apply Step; auto. now left.
Qed.
Lemma big_work_keys T stop och x r k oc : ch_keys T och -> In (x, r, (k, oc)) (big_work stop och) -> T (fst k).
Proof.
  intros G I. rewrite big_work_eq in I. apply work_in in I; [|now intros].
  destruct I as (pre & x' & xl & r' & k' & v & E & Eo & F & N). injection E as <- <- <- <-.
  apply (G x xl); [rewrite Eo; apply in_or_app; right; now left|]. congruence.
Qed.
Lemma lists_work_kinds T stop och x r k v : ch_keys T och -> In (x, r, (k, v)) (lists_work stop och) -> is_list k = true.
Proof.
  intros G I. rewrite lists_work_eq in I. apply work_in in I; [|now intros].
  destruct I as (pre & x' & xl & r' & k' & v' & E & Eo & F & N). injection E as <- <- <- <-.
  assert (Q := G x xl). destruct Q as [_ [Q _]]; [rewrite Eo; apply in_or_app; right; now left|]. eapply Q; eauto.
Qed.
Lemma dicts_work_kinds T stop och x xl r k v : ch_keys T och -> In (x, xl, r, (k, v)) (dicts_work stop och) -> is_dict k || is_schema k = true.
Proof.
  intros G I. rewrite dicts_work_eq in I. apply work_in in I; [|now intros].
  destruct I as (pre & x' & xl' & r' & k' & v' & E & Eo & F & N). assert (k' = k) by congruence. subst k'.
  assert (Q := G x' xl'). destruct Q as [_ [_ Q]]; [rewrite Eo; apply in_or_app; right; now left|]. eapply Q; eauto.
Qed.
Lemma merge_big_keys T h p a rest och fr l : keys_in T l -> ch_keys T och -> keys_in T (fst (merge_big h p a rest och fr l)).
Proof.
  intros K G. unfold merge_big. apply fold_err_inv; auto. intros s [[x r] [k oc]] Ks I.
  destruct (merge_key _ _ _ _ _ _ _ _ _ _ _) as [[c err]|]; auto. cbn [fst]. apply keys_set; auto. eapply big_work_keys; eauto.
Qed.
Lemma update_big_keys T h fa fl rest och fr u : keys_in T u -> ch_keys T och -> keys_in T (fst (update_big h fa fl rest och fr u)).
Proof.
  intros K G. unfold update_big. apply fold_err_inv; auto. intros s [[x r] [k oc]] Ks I.
  destruct (merge_key _ _ _ _ _ _ _ _ _ _ _) as [[c err]|]; auto. cbn [fst]. apply keys_set; auto. eapply big_work_keys; eauto.
Qed.
Definition same_but_small (l s : layer) : Prop := big s = big l /\ lists s = lists l /\ dicts s = dicts l.
Lemma merge_small_big p a rest och stop l : same_but_small l (fst (merge_small p a rest och stop l)).
Proof.
  unfold merge_small. apply (fold_err_inv (same_but_small l)); [|unfold same_but_small; auto]. intros s attr E _. unfold merge_attr.
  destruct (if list_eq_dec _ _ _ then _ else _); auto.
  set (tids := if (_ && _) then [] else _). set (os := if (_ && _) then _ else _). clearbody tids os.
  assert (X : forall ow : bool, same_but_small l (fst (fold_err (fun (l0 : layer) '((o, item) : ObjectId * ditem) =>
     match (if is_overwrite p then None else or_else (if ow then s_find (small_source l0 attr) o else None) (look_small rest attr o)) with
     | Some v => (l0, is_raise p && differ v item)
     | None => (set_small l0 attr (sp_map (sparse_set (mkSparse None (small_source l0 attr)) o item)), false)
     end) (process_sparse [] os) s))).
  { intros ow. apply (fold_err_inv (same_but_small l)); auto. intros s0 [o item] E0 _. destruct (if is_overwrite p then _ else _); auto. }
  destruct tids as [|t ts]; [|apply X]. destruct os as [|m [|m' os]]; try apply X. cbn [fst].
  destruct (a_find string_dec (small s) attr); auto.
Qed.
Lemma merge_lists_big p a rest och stop l : big (fst (merge_lists p a rest och stop l)) = big l.
Proof.
  unfold merge_lists. apply (fold_err_inv (fun s => big s = big l)); auto. intros s [[x r] [alloc ov]] E _.
  destruct (same_addr _ _); auto. destruct (fold_err _ _ _) as [v err]. exact E.
Qed.
Lemma merge_lists_kinds T p a rest och stop l : kinds_in l -> ch_keys T och -> kinds_in (fst (merge_lists p a rest och stop l)).
Proof.
  intros K G. unfold merge_lists. apply fold_err_inv; auto. intros s [[x r] [alloc ov]] Ks I.
  destruct (same_addr _ _); auto. destruct (fold_err _ _ _) as [v err]. cbn [fst]. apply kinds_set_lists; auto. eapply lists_work_kinds; eauto.
Qed.
Lemma merge_dicts_kinds T iter dp sp a rest och stop l : kinds_in l -> ch_keys T och -> kinds_in (fst (merge_dicts iter dp sp a rest och stop l)).
Proof.
  intros K G. unfold merge_dicts. apply fold_err_inv; auto. intros s [[[x xl] r] [alloc ov]] Ks I.
  assert (Q := dicts_work_kinds T stop och x xl r alloc ov G I). destruct (same_addr _ _); auto.
  apply fold_err_inv; [|now apply kinds_set_dicts]. intros s0 i E0 _.
  destruct (look_dict (xl :: r) alloc i); auto. destruct (look_dict ((a, s0) :: rest) alloc i); auto.
  destruct (merge_dict _ _ _ _ _) as [d' err]. now apply kinds_set_dicts.
Qed.
Lemma merge_dicts_big iter dp sp a rest och stop l : big (fst (merge_dicts iter dp sp a rest och stop l)) = big l.
Proof.
  unfold merge_dicts. apply (fold_err_inv (fun s => big s = big l)); auto. intros s [[[x xl] r] [alloc ov]] E _.
  destruct (same_addr _ _); auto. apply (fold_err_inv (fun s => big s = big l)); auto. intros s0 i E0 _.
  destruct (look_dict (xl :: r) alloc i); auto. destruct (look_dict ((a, s0) :: rest) alloc i); auto.
  destruct (merge_dict _ _ _ _ _) as [d' err]. exact E0.
Qed.
Lemma merge_layer_keys iter T h dp sp a b l bl : keys_in T l -> ch_keys T (chain h b) -> keys_in T (fst (merge_layer iter h dp sp a b l bl)).
Proof.
  intros K G. unfold merge_layer, then_merge.
  assert (K1 := merge_big_keys T h dp a (parents h a) (chain h b) (frozen bl) l K G).
  destruct (merge_big _ _ _ _ _ _ _) as [l1 e1]. cbn [fst] in K1. destruct e1; auto.
  assert (B2 := merge_small_big dp a (parents h a) (chain h b) (non_pristine a l1) l1).
  destruct (merge_small _ _ _ _ _ _) as [l2 e2]. cbn [fst] in B2. destruct B2 as (B2 & B2l & B2d).
  assert (Q2 : kinds_in l2) by (apply (kinds_same l1); auto; apply K1). destruct e2; [eapply keys_same; eauto|].
  assert (B3 := merge_lists_big dp a (parents h a) (chain h b) (non_pristine a l2) l2).
  assert (Q3 := merge_lists_kinds T dp a (parents h a) (chain h b) (non_pristine a l2) l2 Q2 G).
  destruct (merge_lists _ _ _ _ _ _) as [l3 e3]. cbn [fst] in B3, Q3. destruct e3; [apply (keys_same T l1); auto; cbn; congruence|].
  apply (keys_same T l1); auto; [rewrite merge_dicts_big; congruence|]. now apply (merge_dicts_kinds T).
Qed.
Lemma keys_chain T h : (forall x l, nth_error h x = Some l -> keys_in T l) -> forall a, ch_keys T (chain h a).
Proof.
  intros K a x l. unfold chain. generalize a at 1. intros fuel. revert a.
  induction fuel as [|n IH]; intros c I; cbn [chain_from] in I; destruct (nth_error h c) as [lc|] eqn:Ec; try easy.
  - destruct I as [I|I]; [assert (l = lc) by congruence; subst; eauto|easy].
  - destruct I as [I|I]; [assert (l = lc) by congruence; subst; eauto|]. destruct (parent lc) as [p|]; [exact (IH p I)|easy].
Qed.
Lemma merge_impl_keys iter T h dp sp a b h' err : (forall x l, nth_error h x = Some l -> keys_in T l) ->
  merge_impl iter h dp sp a b = Some (h', err) -> forall x l, nth_error h' x = Some l -> keys_in T l.
Proof.
  intros K E x lx Ex. assert (G := keys_chain T h K b). unfold merge_impl in E. destruct (nth_error h a) as [l|] eqn:Ea; [|easy]. destruct (nth_error h b) as [bl|] eqn:Eb; [|easy].
  destruct (frozen l); [easy|]. destruct (is_subset b bl a l).
  - assert (h' = h) by congruence. subst. eauto.
  - assert (M := merge_layer_keys iter T h dp sp a b l bl (K a l Ea) G). destruct (merge_layer iter h dp sp a b l bl) as [l' e].
    assert (h' = put h a l') by congruence. subst. rewrite nth_put, Ea in Ex. destruct (x =? a); [|eauto]. assert (lx = l') by congruence. now subst.
Qed.
Lemma update_impl_keys iter T h a b h' u : (forall x l, nth_error h x = Some l -> keys_in T l) ->
  update_impl iter h a b = Some (h', u) -> forall x l, nth_error h' x = Some l -> keys_in T l.
Proof.
  intros K E. unfold update_impl in E. destruct (nth_error h a) as [l|] eqn:Ea; [|easy]. destruct (nth_error h b) as [bl|] eqn:Eb; [|easy].
  assert (N : forall fr p, keys_in T (mkLayer fr p [] [] [] [])) by (intros fr p; split; [intros k F; now elim F|split; cbn; discriminate]).
  assert (App : forall h0 l0, (forall x l, nth_error h0 x = Some l -> keys_in T l) -> keys_in T l0 -> forall x l, nth_error (h0 ++ [l0]) x = Some l -> keys_in T l).
  { intros h0 l0 K0 Kl x lx Ex. destruct (Nat.lt_ge_cases x (length h0)) as [L|G].
    - rewrite nth_error_app1 in Ex by auto. eauto.
    - rewrite nth_error_app2 in Ex by auto. destruct (x - length h0) as [|[|?]]; try easy. now injection Ex as <-. }
  destruct (is_subset b bl a l).
  - assert (h' = h ++ [mkLayer false None [] [] [] []]) by congruence. subst. apply App; auto.
  - set (fl := mkLayer false (if is_pristine l then parent l else Some a) [] [] [] []) in *. set (h1 := h ++ [fl]) in *.
    assert (K1 : forall x l, nth_error h1 x = Some l -> keys_in T l) by (apply App; [exact K|apply N]).
    assert (G : ch_keys T (chain h1 b)).
    { now apply keys_chain. }
    assert (M := update_big_keys T h1 (length h) fl (parents h1 (length h)) (chain h1 b) (frozen bl) (mkLayer false None [] [] [] []) (N false None) G).
    destruct (update_big _ _ _ _ _ _ _) as [u1 err]. cbn [fst] in M. destruct err; [easy|].
    assert (h' = h ++ [update_dicts iter (length h) fl (parents h1 (length h)) (chain h1 b) (update_lists (length h) fl (parents h1 (length h)) (chain h1 b) (update_small (length h) fl (parents h1 (length h)) (chain h1 b) u1))]) by congruence.
    subst h'. apply App; auto.
    set (rest := parents h1 (length h)). set (och := chain h1 b).
    assert (B1 : same_but_small u1 (update_small (length h) fl rest och u1)).
    { unfold update_small. apply (fold_left_inv (same_but_small u1)); [|unfold same_but_small; auto]. intros s attr Es _. unfold update_attr.
      destruct (if list_eq_dec _ _ _ then _ else _); auto.
      set (tids := if (is_suffix _ _) then [] else _). set (os := if (is_suffix _ _) then _ else _). clearbody tids os.
      assert (X : same_but_small u1 (fold_left (fun (u : layer) '((o, item) : ObjectId * ditem) => set_small u attr (sp_map (sparse_set (mkSparse None (small_source u attr)) o item))) (process_sparse [] os) s)).
      { apply (fold_left_inv (same_but_small u1)); auto. intros s0 [o item] E0 _. exact E0. }
      destruct tids as [|t ts]; [|apply X]. destruct os as [|m [|m' os]]; try apply X. destruct (a_find string_dec (small s) attr); auto. }
    assert (B2 : forall s, big (update_lists (length h) fl rest och s) = big s).
    { intros s. unfold update_lists. apply (fold_left_inv (fun x => big x = big s)); auto. intros s0 [[x r] [alloc ov]] E0 _. destruct (same_addr _ _); auto. }
    destruct B1 as (B1 & B1l & B1d).
    apply (keys_same T u1); auto.
    + unfold update_dicts. apply (fold_left_inv (fun x => big x = big u1)); [|rewrite B2; exact B1].
      intros s0 [[[x xl] r] [alloc ov]] E0 _. destruct (same_addr _ _); auto.
    + unfold update_dicts. apply fold_left_inv.
      { intros s0 [[[x xl] r] [alloc ov]] E0 I. assert (Q := dicts_work_kinds T _ och x xl r alloc ov G I). destruct (same_addr _ _); auto. now apply kinds_set_dicts. }
      unfold update_lists. apply fold_left_inv.
      { intros s0 [[x r] [alloc ov]] E0 I. assert (Q := lists_work_kinds T _ och x r alloc ov G I). destruct (same_addr _ _); auto. now apply kinds_set_lists. }
      apply (kinds_same u1); auto. apply M.
Qed.
