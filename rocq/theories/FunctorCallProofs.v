(** Proofs about the creation of functors, about calls and about the cache. *)
From Coq Require Import String List Bool Arith Lia Relations.
From Verif Require Import SignatureModel SignatureSpec SignatureProofs FunctorModel FunctorSpec FunctorProofs.
Import ListNotations.
Local Open Scope string_scope.
Local Open Scope nat_scope.
Local Open Scope list_scope.

(** ** Sorted names *)
Lemma asc_of_ascending l : ascending l -> asc l.
Proof.
  induction l as [|a l IH]; intros A; constructor.
  - apply Forall_forall. intros b I. apply In_nth_error in I. destruct I as [j J]. apply (A 0 (S j) a b); [lia|reflexivity|exact J].
  - apply IH. intros i j x y L X Y. apply (A (S i) (S j) x y); [lia|exact X|exact Y].
Qed.
Lemma asc_head_min a l x : asc (a :: l) -> In x l -> String.compare a x = Lt.
Proof. intros A I. inversion A; subst. rewrite Forall_forall in *. auto. Qed.
Lemma asc_unique l : forall l', asc l -> asc l' -> (forall x, In x l <-> In x l') -> l = l'.
Proof.
  induction l as [|a l IH]; intros l' A A' E.
  - destruct l' as [|b l']; [reflexivity|]. destruct (proj2 (E b)). left; reflexivity.
  - destruct l' as [|b l']; [destruct (proj1 (E a)); left; reflexivity|].
    assert (a = b).
    { destruct (proj1 (E a) (or_introl eq_refl)) as [H|H]; [congruence|].
      destruct (proj2 (E b) (or_introl eq_refl)) as [Q|Q]; [congruence|].
      pose proof (asc_head_min _ _ _ A Q) as X. pose proof (asc_head_min _ _ _ A' H) as Y.
      pose proof (compare_lt_trans _ _ _ X Y) as Z. rewrite compare_refl in Z. discriminate. }
    subst b. f_equal. inversion A; inversion A'; subst. apply IH; auto. intros x. specialize (E x). cbn in E. split; intros I.
    + destruct (proj1 E (or_intror I)) as [<-|Q]; [|exact Q]. exfalso. pose proof (asc_head_min _ _ _ A I) as X. rewrite compare_refl in X. discriminate.
    + destruct (proj2 E (or_intror I)) as [<-|Q]; [|exact Q]. exfalso. pose proof (asc_head_min _ _ _ A' I) as X. rewrite compare_refl in X. discriminate.
Qed.
Lemma asc_filter g l : asc l -> asc (filter g l).
Proof.
  induction 1 as [|a l F A IH]; cbn; [constructor|]. destruct (g a); [|exact IH]. constructor; [|exact IH].
  rewrite Forall_forall in *. intros x X. apply filter_In in X. apply F, X.
Qed.

Lemma nodup_snoc {A} (l : list A) x : NoDup l -> ~ In x l -> NoDup (l ++ [x]).
Proof.
  induction 1 as [|a l N H IH]; intros I; cbn; [repeat constructor; auto|].
  constructor; [|apply IH; intros Q; apply I; right; exact Q].
  rewrite in_app_iff. cbn. intros [Q|[Q|[]]]; [contradiction|]. apply I. left. auto.
Qed.
Lemma nodup_snoc_inv {A} (l : list A) x : NoDup (l ++ [x]) -> NoDup l /\ ~ In x l.
Proof. intros H. apply NoDup_remove with (l' := []) in H. rewrite app_nil_r in H. exact H. Qed.

Section Create.
Variables (V op : Type).
Variable self_default : V.
Variable as_object : list (param V) -> V.

Lemma all_inputs_ok (values : list (item V op)) :
  match all_inputs values with
  | Ok l => (forall e, In (Quote e) values -> ~ strange e)
      /\ forall n, In n l <-> exists e, In (Quote e) values /\ occurs "I" n e
  | Err _ => exists e, In (Quote e) values /\ strange e
  end.
Proof.
  induction values as [|i values IH]; [cbn; split; [intros e []|intros n; split; [intros []|intros (e & [] & _)]]|].
  assert (SKIP : (forall e, i <> Quote e) -> match all_inputs values with
    | Ok l => (forall e, In (Quote e) (i :: values) -> ~ strange e)
        /\ forall n, In n l <-> exists e, In (Quote e) (i :: values) /\ occurs "I" n e
    | Err _ => exists e, In (Quote e) (i :: values) /\ strange e
    end).
  { intros NQ. destruct (all_inputs values).
    - destruct IH as [A B]. split.
      + intros e [E|I]; [exfalso; apply (NQ e E)|apply A; exact I].
      + intros n. rewrite B. split; intros (e & I & O); exists e; (split; [|exact O]); [right; exact I|].
        destruct I as [E|I]; [exfalso; apply (NQ e E)|exact I].
    - destruct IH as (e' & I & S). exists e'. split; [right; exact I|exact S]. }
  destruct i as [q|v|v|v ps|v]; try (apply SKIP; intros; discriminate). clear SKIP.
  cbn [all_inputs]. unfold expr_names. destruct (legal q) eqn:L.
  - destruct (all_inputs values) as [l|er].
    + destruct IH as [A B]. split.
      * intros e [E|I]; [injection E as <-; intros S; apply legal_iff in S; congruence|apply A; exact I].
      * intros n. rewrite in_app_iff, sorted_names_in, names_in_iff, B. split.
        -- intros [O|(e & I & O)]; [exists q; split; [left; reflexivity|exact O]|exists e; split; [right; exact I|exact O]].
        -- intros (e & [E|I] & O); [injection E as <-; left; exact O|right; exists e; auto].
    + destruct IH as (e' & I & S). exists e'. split; [right; exact I|exact S].
  - apply legal_iff in L. exists q. split; [left; reflexivity|exact L].
Qed.

Lemma default_valid named : ascending named -> ~ In "self" named ->
  (valid_parameters ([mkParam "self" PositionalOnly (Some (0, self_default))]
               ++ map (fun n => mkParam n KeywordOnly None) named
               ++ [mkParam "__extra_inputs__" VarKeyword None]) <-> ~ In "__extra_inputs__" named).
Proof.
  intros A NS.
  assert (NM : map p_name ([mkParam "self" PositionalOnly (Some (0, self_default))]
               ++ map (fun n => mkParam n KeywordOnly None) named
               ++ [mkParam "__extra_inputs__" VarKeyword None]) = "self" :: named ++ ["__extra_inputs__"]).
  { rewrite !map_app, map_map. cbn. rewrite map_id. reflexivity. }
  assert (AT : forall i p, at_ ([mkParam "self" PositionalOnly (Some (0, self_default))]
               ++ map (fun n => mkParam n KeywordOnly None) named
               ++ [mkParam "__extra_inputs__" VarKeyword None]) i p ->
      (i = 0 /\ p = mkParam "self" PositionalOnly (Some (0, self_default)))
      \/ (0 < i <= length named /\ exists n, p = mkParam n KeywordOnly None)
      \/ (i = S (length named) /\ p = mkParam "__extra_inputs__" VarKeyword None)).
  { intros i p H. unfold at_ in H. destruct i as [|i]; [left; cbn in H; split; congruence|]. right. cbn in H.
    destruct (Nat.lt_ge_cases i (length named)) as [L|L].
    - left. split; [lia|]. rewrite nth_error_app1 in H by (rewrite map_length; exact L).
      rewrite nth_error_map in H. destruct (nth_error named i) as [n|]; [|discriminate]. injection H as <-. eauto.
    - right. rewrite nth_error_app2 in H by (rewrite map_length; exact L). rewrite map_length in H.
      destruct (i - length named) as [|k] eqn:D; [cbn in H; injection H as <-; split; [lia|reflexivity]|]. destruct k; discriminate. }
  split.
  - intros (ND & _). rewrite NM in ND. inversion ND as [|? ? _ ND']; subst. intros I.
    apply NoDup_remove_2 with (l := named) (l' := []) in ND'. rewrite app_nil_r in ND'. contradiction.
  - intros NE. split; [|split; [|split]].
    + rewrite NM. constructor.
      * rewrite in_app_iff. cbn. intros [I|[E|[]]]; [contradiction|discriminate].
      * apply nodup_snoc; [apply asc_nodup, asc_of_ascending; exact A|exact NE].
    + intros i j p q L P Q. apply AT in P. apply AT in Q. unfold before.
      destruct P as [(P1 & ->)|[(P1 & n & ->)|(P1 & ->)]], Q as [(Q1 & ->)|[(Q1 & m & ->)|(Q1 & ->)]]; try lia; cbn; tauto.
    + intros i j p q L P Q BP DP. apply AT in Q. destruct Q as [(Q1 & ->)|[(Q1 & m & ->)|(Q1 & ->)]];
        [cbn; discriminate|destruct BP as [B|B]; discriminate|destruct BP as [B|B]; discriminate].
    + intros p rank d I D. apply In_nth_error in I. destruct I as [i I]. apply AT in I.
      destruct I as [(I1 & ->)|[(I1 & m & ->)|(I1 & ->)]]; try discriminate. cbn in D. injection D as <- _.
      split; [intros [T|T]; discriminate|reflexivity].
Qed.
Lemma process_signature_iff (g : item V op) values s :
  process_signature self_default as_object g values = Ok s <-> signature_for self_default as_object g values s.
Proof.
  unfold process_signature, signature_for. destruct g as [q|v|v|v ps|v].
  1,2,5: split; [discriminate|intros [(w & ps & E & _)|(w & n & ps & E & _)]; discriminate].
  - pose proof (all_inputs_ok values) as AI. destruct (all_inputs values) as [inputs|er].
    2:{ split; [discriminate|]. intros [(w & ps & E & _)|(w & n & ps & E & NS & _)]; [discriminate|].
        destruct AI as (e & I & S). exfalso. apply (NS e I S). }
    destruct AI as [NS IN].
    set (named := filter (fun n => negb (String.eqb n "self")) (sorted_names inputs)).
    assert (A : asc named) by (apply asc_filter, sorted_names_asc).
    assert (INN : forall n, In n named <-> n <> "self" /\ exists e, In (Quote e) values /\ occurs "I" n e).
    { intros n. unfold named. rewrite filter_In, sorted_names_in, IN, negb_true_iff. destruct (String.eqb_spec n "self") as [->|NE]; split.
      - intros [_ Q]. discriminate.
      - intros [Q _]. congruence.
      - intros [Q _]. auto.
      - intros [_ Q]. auto. }
    assert (SELF : ~ In "self" named) by (rewrite INN; intros [X _]; congruence).
    pose proof (default_valid named (asc_ascending _ A) SELF) as DV.
    unfold default_parameters. fold named.
    match goal with |- context [create_signature ?l] => set (ps := l) in * end.
    split.
    + destruct (create_signature ps) as [sg|er] eqn:C; [|discriminate]. intros H. injection H as <-.
      right. exists v, named, ps. split; [reflexivity|]. split; [exact NS|]. split; [apply asc_ascending; exact A|].
      split; [exact INN|]. split; [|split; reflexivity]. apply DV. apply create_signature_iff in C. apply C.
    + intros [(w & ps' & E & _)|(w & named' & ps' & _ & _ & A' & INN' & NE & EP & ->)]; [discriminate|].
      assert (named' = named).
      { apply asc_unique; [apply asc_of_ascending; exact A'|exact A|]. intros x. rewrite INN, INN'. reflexivity. }
      subst named'. fold ps in EP. subst ps'. apply DV in NE.
      rewrite (proj2 (create_signature_iff V ps (mkSig ps (keyword_index 0 ps)))); [reflexivity|auto].
  - split.
    + destruct (create_signature ps) as [sg|er] eqn:C; [|discriminate]. intros H. injection H as <-.
      left. exists v, ps. split; [reflexivity|]. split; [|reflexivity]. apply create_signature_iff in C. apply C.
    + intros [(w & ps' & E & VP & ->)|(w & n & ps' & E & _)]; [|discriminate]. injection E as <- <-.
      rewrite (proj2 (create_signature_iff V ps (mkSig ps (keyword_index 0 ps)))); [reflexivity|auto].
Qed.

Lemma items_of_iff (l : list (string * slice V op)) f :
  items_of l = Ok f <-> (forall n rank i, In (n, (rank, i)) l -> rank = 0) /\ f = map (fun x => (fst x, snd (snd x))) l.
Proof.
  revert f. induction l as [|[n [rank i]] l IH]; intros f; cbn [items_of map fst snd].
  - split; [intros H; injection H as <-; split; [intros n rank i []|reflexivity]|intros [_ ->]; reflexivity].
  - destruct (Nat.eqb_spec rank 0) as [->|NZ].
    + destruct (items_of l) as [g|e] eqn:E.
      * destruct (proj1 (IH g) eq_refl) as [A ->]. split.
        -- intros H. injection H as <-. split; [|reflexivity]. intros m r j [Q|Q]; [congruence|apply (A m r j Q)].
        -- intros [_ ->]. reflexivity.
      * split; [discriminate|]. intros [A _]. exfalso.
        assert (Err e = Ok (map (fun x => (fst x, snd (snd x))) l)); [|discriminate].
        apply IH. split; [|reflexivity]. intros m r j Q. apply (A m r j). right. exact Q.
    + split; [discriminate|]. intros [A _]. exfalso. apply NZ. apply (A n rank i). left. reflexivity.
Qed.

Lemma lookup_app {A} n (l l' : list (string * A)) : lookup n (l ++ l') = match lookup n l with Some x => Some x | None => lookup n l' end.
Proof. induction l as [|[m x] l IH]; cbn; [reflexivity|]. destruct (String.eqb n m); [reflexivity|exact IH]. Qed.

Theorem create_iff (ret sg : slice V op) vars f :
  NoDup ("returns" :: map fst vars ++ ["__signature__"]) ->
  create_functor self_default as_object ret sg vars = Ok f <-> creates self_default as_object ret sg vars f.
Proof.
  intros ND. unfold create_functor, creates. destruct ret as [rr ri], sg as [sr si]. cbn [fst snd].
  destruct (Nat.eqb_spec rr 0) as [->|N]; cbn [negb]; [|split; [discriminate|intros (A & _); congruence]].
  assert (PR : present ri = true <-> forall v, ri <> Missing v).
  { destruct ri; cbn; split; intros H; try discriminate; try reflexivity; try (intros; discriminate). exfalso. apply (H v). reflexivity. }
  destruct (present ri) eqn:P; cbn [negb]; [|split; [discriminate|]; intros (_ & A & _); apply PR in A; discriminate].
  destruct (Nat.eqb_spec sr 0) as [->|N]; cbn [negb]; [|split; [discriminate|intros (_ & _ & A & _); congruence]].
  destruct (items_of vars) as [vs|er] eqn:IT.
  2:{ split; [discriminate|]. intros (_ & _ & _ & A & _). 
      assert (Q : items_of vars = Ok (map (fun x => (fst x, snd (snd x))) vars)) by (apply items_of_iff; auto).
      rewrite IT in Q. discriminate. }
  apply items_of_iff in IT. destruct IT as [RK ->]. cbn [map snd fst]. rewrite !map_map. cbn [snd fst].
  match goal with |- context [process_signature _ _ _ ?vl] => set (values := vl) in * end.
  pose proof (process_signature_iff si values) as PS.
  assert (HR : forall s, has_attr "returns" (("returns", ri) :: map (fun x => (fst x, snd (snd x))) vars ++ [("__signature__", s)])).
  { intros s. exists ri. split; [reflexivity|]. apply PR. reflexivity. }
  assert (HS : forall v ps, has_attr "__signature__" (("returns", ri) :: map (fun x => (fst x, snd (snd x))) vars ++ [("__signature__", SignatureObject v ps)])).
  { intros v ps. exists (SignatureObject v ps). split; [|intros; discriminate]. cbn [lookup]. cbn. rewrite lookup_app.
    rewrite (proj2 (lookup_none "__signature__" _)); [reflexivity|]. rewrite map_map. cbn [fst].
    inversion ND as [|? ? _ ND']; subst. apply nodup_snoc_inv in ND'. apply ND'. }
  assert (SO : forall s, signature_for self_default as_object si values s -> exists v ps, s = SignatureObject v ps).
  { intros s [(v & ps & -> & _ & ->)|(v & n & ps & _ & _ & _ & _ & _ & _ & ->)]; eauto. }
  destruct (process_signature self_default as_object si values) as [s|er].
  2:{ split; [discriminate|]. intros (_ & _ & _ & _ & (s & A & _) & _). apply PS in A. discriminate. }
  pose proof (proj1 (PS s) eq_refl) as SF. destruct (SO s SF) as (v & ps & ->).
  match goal with |- context [validate_defined ?g ?d] => pose proof (validate_ok V op g d) as VD; set (f0 := g) in * end.
  split.
  - destruct (validate_defined f0 _) as [[]|er]; [|discriminate]. intros H. injection H as <-.
    destruct (proj1 VD eq_refl) as (_ & _ & AC & PL & RE). split; [reflexivity|]. split; [apply PR; reflexivity|].
    split; [reflexivity|]. split; [exact RK|]. split; [exists (SignatureObject v ps); split; [exact SF|reflexivity]|].
    split; [exact AC|]. split; [exact PL|]. intros x X. destruct (RE x X) as [<-|Q]; [left; reflexivity|right; exact Q].
  - intros (_ & _ & _ & _ & (s & SF' & ->) & AC & PL & RE).
    assert (s = SignatureObject v ps). { apply PS in SF'. congruence. }
    subst s. fold f0. rewrite (proj2 VD); [reflexivity|]. split; [apply HR|]. split; [apply HS|]. split; [exact AC|].
    split; [exact PL|]. intros x X. destruct (RE x X) as [->|Q]; [left; reflexivity|right; exact Q].
Qed.
End Create.

Lemma find_map {A} (g : nat -> A) l j : find j (map (fun i => (i, g i)) l) = if in_dec Nat.eq_dec j l then Some (g j) else None.
Proof.
  induction l as [|i l IH]; cbn [map find]; [reflexivity|]. destruct (Nat.eqb_spec j i) as [->|N].
  - destruct (in_dec Nat.eq_dec i (i :: l)) as [I|NI]; [reflexivity|]. exfalso. apply NI. left. reflexivity.
  - rewrite IH. destruct (in_dec Nat.eq_dec j l) as [I|NI], (in_dec Nat.eq_dec j (i :: l)) as [I'|NI']; try reflexivity.
    + exfalso. apply NI'. right. exact I.
    + exfalso. destruct I' as [E|I']; [congruence|contradiction].
Qed.
Lemma find_none {A} (l : list (nat * A)) j : find j l = None <-> ~ In j (map fst l).
Proof.
  induction l as [|[i a] l IH]; cbn; [tauto|]. destruct (Nat.eqb_spec j i) as [->|N].
  - split; [discriminate|]. intros H. exfalso. apply H. auto.
  - rewrite IH. split; intros H; [intros [E|E]; auto|]. intros E. apply H. auto.
Qed.

Section CallProofs.
Variables (V op bag : Type).
Variable op_with_bag : op.
Variable token : V.
Variable eval_op : op -> list (option V) -> option V.
Variable with_bag : bag -> V -> V.
Variable bag_value : bag -> V.
Variable tuple_value : list V -> V.
Variable named_value : list (string * V) -> V.
Hypothesis op_with_bag_ok : forall b v, eval_op op_with_bag [Some v; Some (bag_value b)] = Some (with_bag b v).

Lemma passed_twice_some wanted (l : list (string * V)) n : passed_twice wanted l = Some n ->
  In n wanted /\ exists l1 v l2, l = l1 ++ (n, v) :: l2 /\ In n (map fst l2).
Proof.
  induction l as [|[m v] l IH]; cbn [passed_twice]; [discriminate|].
  destruct (existsb (String.eqb m) wanted && existsb (fun x => String.eqb m (fst x)) l) eqn:E.
  - intros H. injection H as <-. apply andb_true_iff in E. destruct E as [E1 E2].
    apply existsb_exists in E1, E2. destruct E1 as (x & X & EX), E2 as (y & Y & EY). apply String.eqb_eq in EX, EY. subst.
    split; [exact X|]. exists [], v, l. split; [reflexivity|]. apply List.in_map. exact Y.
  - intros H. destruct (IH H) as (A & l1 & w & l2 & -> & B). split; [exact A|]. exists ((m, v) :: l1), w, l2. auto.
Qed.
Lemma passed_twice_none wanted (l : list (string * V)) : passed_twice wanted l = None ->
  forall l1 n v l2, l = l1 ++ (n, v) :: l2 -> In n wanted -> ~ In n (map fst l2).
Proof.
  induction l as [|[m w] l IH]; cbn [passed_twice]; intros H l1 n v l2 E W I; [destruct l1; discriminate|].
  destruct (existsb (String.eqb m) wanted && existsb (fun x => String.eqb m (fst x)) l) eqn:EX; [discriminate|].
  destruct l1 as [|x l1]; cbn in E.
  - injection E as <- <- <-. apply andb_false_iff in EX. destruct EX as [EX|EX].
    + assert (existsb (String.eqb m) wanted = true); [|congruence]. apply existsb_exists. exists m. split; [exact W|apply String.eqb_refl].
    + assert (existsb (fun x => String.eqb m (fst x)) l = true); [|congruence]. apply existsb_exists.
      apply in_map_iff in I. destruct I as (y & <- & Y). exists y. split; [exact Y|apply String.eqb_refl].
  - injection E as _ E. apply (IH H l1 n v l2 E W I).
Qed.
Lemma existsb_name n (l : list (string * V)) : existsb (fun x => String.eqb n (fst x)) l = true <-> In n (map fst l).
Proof.
  rewrite existsb_exists, in_map_iff. split.
  - intros (x & I & E). apply String.eqb_eq in E. exists x. auto.
  - intros (x & <- & I). exists x. split; [exact I|apply String.eqb_refl].
Qed.
Lemma combine_fst {A B} (l : list A) : forall (l' : list B), length l = length l' -> map fst (combine l l') = l.
Proof. induction l as [|a l IH]; intros [|b l'] E; try discriminate; cbn; [reflexivity|]. f_equal. apply IH. cbn in E. lia. Qed.

Lemma binds_unique b ps pos kw r r' : valid_parameters ps -> binds (with_bag b) ps pos kw r -> binds (with_bag b) ps pos kw r' -> r = r'.
Proof.
  intros VP B B'. pose proof (proj2 (bind_iff V bag with_bag ps pos kw (Some b) VP r) B) as E.
  pose proof (proj2 (bind_iff V bag with_bag ps pos kw (Some b) VP r') B') as E'. rewrite E in E'. injection E' as ->. reflexivity.
Qed.
Lemma binds_length b (ps : list (param V)) pos kw r : binds (with_bag b) ps pos kw r -> length r = length ps.
Proof. intros (_ & _ & _ & _ & L & _). exact L. Qed.

Local Notation calls := (calls token eval_op with_bag bag_value tuple_value named_value).
Local Notation call_fails := (call_fails token eval_op with_bag bag_value tuple_value named_value).
Local Notation call := (call op_with_bag token eval_op with_bag bag_value tuple_value named_value).

Theorem call_cases b f pos kw :
  match call b f (pos ++ map snd kw) (map fst kw) with
  | Ok v => calls b f pos kw v
  | Err e => call_fails b f pos kw e
  end.
Proof.
  unfold FunctorModel.call. destruct (is_functor f) eqn:F; cbn [negb].
  2:{ cbn. rewrite <- is_functor_iff. congruence. }
  apply is_functor_iff in F. destruct F as [HR HS]. unfold process. change signature_attr with "__signature__".
  destruct (lookup "__signature__" f) as [i|] eqn:L.
  2:{ destruct HS as (i & L' & _). congruence. }
  destruct i as [q|v|v|v ps|v].
  1,2,3,5: cbn [FunctorSpec.call_fails]; eexists; split; [exact L|intros; discriminate].
  destruct (create_signature ps) as [s|e] eqn:C.
  2:{ exists v, ps. split; [exact L|]. left. intros VP.
      assert (create_signature ps = Good (mkSig ps (keyword_index 0 ps))) by (apply create_signature_iff; auto). congruence. }
  apply create_signature_iff in C. destruct C as [VP ->].
  pose proof (inline_all_ok V op f op_with_bag token eval_op HR HS) as IA.
  destruct (inline_all op_with_bag f) as [e|e].
  2:{ destruct IA as [T|(x & -> & X & N)]; [|cbn; auto]. destruct e; try contradiction; exact T. }
  destruct IA as (AC & PL & DEF & LG & NV & WT & EV). unfold run. cbn [fst snd s_params].
  destruct (bind_arguments with_bag (mkSig ps (keyword_index 0 ps)) (pos ++ map snd kw) (map fst kw) (Some b)) as [r|e'] eqn:B.
  2:{ exists v, ps. split; [exact L|]. right. split; [exact (bind_complaint V bag with_bag ps pos kw (Some b) VP e' B)|].
      intros r R. apply (bind_iff V bag with_bag ps pos kw (Some b) VP r) in R. congruence. }
  apply (bind_iff V bag with_bag ps pos kw (Some b) VP r) in B. change (binds (with_bag b) ps pos kw r) in B.
  set (inputs := combine (map p_name ps) (map (bound_value tuple_value named_value) r) ++ [(self_bag, bag_value b)]).
  assert (NM : map fst inputs = map p_name ps ++ ["__bag"]).
  { unfold inputs. rewrite map_app. cbn. f_equal. apply combine_fst. rewrite !map_length. symmetry. eapply binds_length; exact B. }
  assert (ND : NoDup (map p_name ps)) by apply VP.
  unfold eval_expr. rewrite LG. cbn [negb]. destruct (passed_twice (names_in "I" e) inputs) as [n|] eqn:PT.
  { apply passed_twice_some in PT. destruct PT as (W & l1 & x & l2 & E & I). apply WT in W.
    assert (n = "__bag" /\ In n (map p_name ps)) as [-> IN].
    { assert (E2 : map p_name ps ++ ["__bag"] = map fst l1 ++ n :: map fst l2) by (rewrite <- NM, E, map_app; reflexivity).
      destruct (exists_last (l := map fst l2)) as (l3 & y & E3); [intros Q; rewrite Q in I; destruct I|].
      rewrite E3 in E2. change (n :: l3 ++ [y]) with ((n :: l3) ++ [y]) in E2. rewrite app_assoc in E2.
      apply app_inj_tail in E2. destruct E2 as [E2 <-]. rewrite E3 in I.
      rewrite E2 in ND. apply NoDup_remove_2 in ND. apply in_app_or in I. destruct I as [I|[<-|[]]].
      - exfalso. apply ND. apply in_or_app. right. exact I.
      - split; [reflexivity|]. rewrite E2. apply in_or_app. right. left. reflexivity. }
    split; [reflexivity|]. split; [exact W|]. exists v, ps. auto. }
  assert (TW : wants f "__bag" -> ~ In "__bag" (map p_name ps)).
  { intros W I. apply WT in W.
    assert (I' : In "__bag" (map fst (combine (map p_name ps) (map (bound_value tuple_value named_value) r)))).
    { rewrite combine_fst; [exact I|]. rewrite !map_length. symmetry. eapply binds_length; exact B. }
    apply in_map_iff in I'. destruct I' as ([m x] & E & J). cbn in E. subst m. apply in_split in J. destruct J as (l1 & l2 & J).
    apply (passed_twice_none _ _ PT l1 "__bag" x (l2 ++ [(self_bag, bag_value b)])); [unfold inputs; rewrite J, <- app_assoc; reflexivity|exact W|].
    rewrite map_app. apply in_or_app. right. left. reflexivity. }
  rewrite NV, andb_true_r.
  destruct (forallb _ (names_in "I" e)) eqn:FB.
  2:{ assert (exists n, In n (names_in "I" e) /\ ~ In n (map fst inputs)) as (n & N1 & N2).
      { clear - FB. induction (names_in "I" e) as [|m l IH]; [discriminate|]. cbn in FB. apply andb_false_iff in FB. destruct FB as [FB|FB].
        - exists m. split; [left; reflexivity|]. intros I. apply existsb_name in I. congruence.
        - destruct (IH FB) as (n & A & Q). exists n. split; [right; exact A|exact Q]. }
      rewrite NM, in_app_iff in N2. cbn in N2. exists v, ps, n. split; [exact L|]. split; [apply WT; exact N1|].
      split; [intros ->; apply N2; right; left; reflexivity|intros I; apply N2; left; exact I]. }
  assert (IN : forall n, wants f n -> In n (map p_name ps) \/ n = "__bag").
  { intros n W. apply WT in W. rewrite forallb_forall in FB. specialize (FB n W). apply existsb_name in FB.
    rewrite NM, in_app_iff in FB. destruct FB as [Q|[Q|[]]]; auto. }
  destruct (EV bag with_bag b inputs (bag_value b) (op_with_bag_ok b)) as (den & DE & ER).
  { intros W. specialize (TW W). unfold inputs. rewrite lookup_app.
    rewrite (proj2 (lookup_none "__bag" _)); [reflexivity|]. rewrite combine_fst; [exact TW|]. rewrite !map_length. symmetry. eapply binds_length; exact B. }
  rewrite ER. change (denotes token eval_op with_bag b f (inputs_of bag_value tuple_value named_value b ps r) den) in DE.
  destruct (den "returns") as [res|] eqn:DR.
  - exists v, ps, r, den. repeat (split; [assumption|]). exact DR.
  - exists v, ps, r, den. repeat (split; [assumption|]). exact DR.
Qed.

Lemma calls_not_fails b f pos kw v e : calls b f pos kw v -> ~ call_fails b f pos kw e.
Proof.
  intros (sv & ps & r & den & HR & L & VP & AC & PL & DEF & B & IN & TW & DE & DR) F.
  assert (HS : has_attr "__signature__" f) by (exists (SignatureObject sv ps); split; [exact L|intros; discriminate]).
  destruct e; cbn in F; try contradiction.
  - apply F. auto.
  - destruct F as (x & q & X & Q & S). apply (PL x q X Q S).
  - destruct F as [X C]. apply (AC _ X C).
  - destruct F as (i & L' & N). rewrite L in L'. injection L' as <-. apply (N sv ps). reflexivity.
  - destruct F as (v' & ps' & L' & F). rewrite L in L'. injection L' as <- <-. destruct F as [F|[_ F]]; [contradiction|apply (F r B)].
  - destruct F as [X N]. apply (DEF _ X N).
  - destruct F as (-> & W & v' & ps' & L' & I). rewrite L in L'. injection L' as <- <-. apply (TW W I).
  - destruct F as (v' & ps' & n & L' & W & N1 & N2). rewrite L in L'. injection L' as <- <-. destruct (IN n W); contradiction.
  - destruct F as (v' & ps' & r' & den' & L' & _ & B' & DE' & DR'). rewrite L in L'. injection L' as <- <-.
    pose proof (binds_unique _ _ _ _ _ _ VP B B'). subst r'.
    pose proof (denotes_unique V op f token eval_op bag with_bag b _ den den' HR HS AC PL DEF DE DE' "returns" (rt_refl _ _ _)). congruence.
Qed.

Theorem call_iff b f pos kw v : call b f (pos ++ map snd kw) (map fst kw) = Ok v <-> calls b f pos kw v.
Proof.
  pose proof (call_cases b f pos kw) as H. split.
  - intros E. rewrite E in H. exact H.
  - intros C. destruct (call b f (pos ++ map snd kw) (map fst kw)) as [v'|e]; [|exfalso; apply (calls_not_fails _ _ _ _ _ _ C H)].
    f_equal. destruct C as (sv & ps & r & den & HR & L & VP & AC & PL & DEF & B & IN & TW & DE & DR).
    destruct H as (sv' & ps' & r' & den' & _ & L' & _ & _ & _ & _ & B' & _ & _ & DE' & DR').
    rewrite L in L'. injection L' as <- <-. pose proof (binds_unique _ _ _ _ _ _ VP B B'). subst r'.
    assert (HS : has_attr "__signature__" f) by (exists (SignatureObject sv ps); split; [exact L|intros; discriminate]).
    pose proof (denotes_unique V op f token eval_op bag with_bag b _ den den' HR HS AC PL DEF DE DE' "returns" (rt_refl _ _ _)). congruence.
Qed.

Theorem call_err b f pos kw e : call b f (pos ++ map snd kw) (map fst kw) = Err e ->
  call_fails b f pos kw e /\ forall v, ~ calls b f pos kw v.
Proof.
  intros E. pose proof (call_cases b f pos kw) as H. rewrite E in H. split; [exact H|].
  intros v C. apply (calls_not_fails _ _ _ _ _ _ C H).
Qed.

(** A created functor *)
Lemma created_signature sd ao (ret sg : slice V op) vars f : NoDup ("returns" :: map fst vars ++ ["__signature__"]) ->
  creates sd ao ret sg vars f ->
  has_attr "returns" f /\ acyclic f /\ plain f /\ defined f
  /\ exists v ps, lookup "__signature__" f = Some (SignatureObject v ps) /\ valid_parameters ps
     /\ ((exists v, snd sg = Missing v) -> forall n, wants f n -> In n (map p_name ps) \/ n = "__bag").
Proof.
  intros ND (R0 & RP & S0 & VR & (s & SF & E) & AC & PL & RE).
  assert (LS : lookup "__signature__" f = Some s).
  { subst f. cbn. rewrite lookup_app. rewrite (proj2 (lookup_none "__signature__" _)); [reflexivity|]. rewrite map_map. cbn [fst].
    inversion ND as [|? ? _ ND']; subst. apply nodup_snoc_inv in ND'. apply ND'. }
  assert (LV : forall x i, x = "returns" \/ In x (map fst vars) -> lookup x f = Some i -> In i (snd ret :: map (fun x => snd (snd x)) vars)).
  { intros x i X L. subst f. cbn in L. destruct (String.eqb_spec x "returns") as [->|N]; [injection L as <-; left; reflexivity|].
    destruct X as [X|X]; [congruence|]. rewrite lookup_app in L.
    destruct (lookup x (map (fun x => (fst x, snd (snd x))) vars)) as [j|] eqn:LX.
    - injection L as <-. apply lookup_in in LX. right. apply in_map_iff in LX. destruct LX as (y & EY & IY).
      apply in_map_iff. exists y. split; [congruence|exact IY].
    - apply lookup_none in LX. exfalso. apply LX. rewrite map_map. exact X. }
  split; [exists (snd ret); split; [subst f; reflexivity|exact RP]|]. split; [exact AC|]. split; [exact PL|]. split.
  - intros x X L. specialize (RE x X). rewrite E in L. cbn [lookup] in L.
    destruct (String.eqb_spec x "returns") as [EX|N]; [discriminate L|].
    destruct RE as [Q|Q]; [contradiction|]. rewrite lookup_app in L.
    destruct (lookup x (map (fun x => (fst x, snd (snd x))) vars)) eqn:LX; [discriminate|]. apply lookup_none in LX. apply LX. rewrite map_map. exact Q.
  - destruct SF as [(v & ps & EG & VP & ->)|(v & named & ps & EG & NS & A & IN & NE & EP & ->)].
    + exists v, ps. split; [rewrite LS, EG; reflexivity|]. split; [exact VP|]. intros [w W]. congruence.
    + exists (ao ps), ps. split; [exact LS|]. assert (SELF : ~ In "self" named) by (rewrite IN; intros [Q _]; congruence).
      split; [subst ps; apply default_valid; assumption|]. intros _ n (x & i & X & L & W).
      assert (NMS : map p_name ps = "self" :: named ++ ["__extra_inputs__"]).
      { subst ps. rewrite !map_app, map_map. cbn. rewrite map_id. reflexivity. }
      destruct i as [q|w|w|w qs|w]; try (right; exact W); [|destruct W]. left. rewrite NMS.
      destruct (String.eqb_spec n "self") as [->|N]; [left; reflexivity|]. right. apply in_or_app. left. apply IN.
      split; [exact N|]. exists q. split; [|exact W]. apply (LV x _ (RE x X) L).
Qed.

Theorem created_call sd ao (ret sg : slice V op) vars f b pos kw e : NoDup ("returns" :: map fst vars ++ ["__signature__"]) ->
  create_functor sd ao ret sg vars = Ok f ->
  call b f (pos ++ map snd kw) (map fst kw) = Err e ->
  match e with
  | EParameters c => exists v ps, lookup "__signature__" f = Some (SignatureObject v ps) /\ complaint_holds ps pos kw c
  | EInputs => (forall v, snd sg <> Missing v) /\ call_fails b f pos kw e
  | EInputTwice _ | EEval => call_fails b f pos kw e
  | _ => False
  end.
Proof.
  intros ND C E. apply (create_iff V op sd ao ret sg vars f ND) in C.
  destruct (created_signature sd ao ret sg vars f ND C) as (HR & AC & PL & DEF & v & ps & L & VP & W).
  destruct (call_err b f pos kw e E) as [F _].
  assert (HS : has_attr "__signature__" f) by (exists (SignatureObject v ps); split; [exact L|intros; discriminate]).
  destruct e; cbn in F; try contradiction; try exact F.
  - apply F. auto.
  - destruct F as (x & q & X & Q & S). apply (PL x q X Q S).
  - destruct F as [X Y]. apply (AC _ X Y).
  - destruct F as (i & L' & N). rewrite L in L'. injection L' as <-. apply (N v ps). reflexivity.
  - destruct F as (v' & ps' & L' & F). rewrite L in L'. injection L' as <- <-. destruct F as [F|[F _]]; [contradiction|]. exists v, ps. auto.
  - destruct F as [X N]. apply (DEF _ X N).
  - split; [|exact F]. intros w EW. destruct F as (v' & ps' & n & L' & WN & N1 & N2). rewrite L in L'. injection L' as <- <-.
    destruct (W (ex_intro _ w EW) n WN); contradiction.
Qed.

(** ** The cache *)
Variable bag_of : nat -> bag.
Local Notation step := (step op_with_bag token eval_op with_bag bag_value tuple_value named_value bag_of).
Local Notation steps := (steps op_with_bag token eval_op with_bag bag_value tuple_value named_value bag_of).
Local Notation result := (fun k f args kwnames => call (bag_of k) f args kwnames).

Definition like (b : bag_state V op) (rb : bool * (nat -> option (functor V op))) : Prop :=
  b_mutable b = fst rb /\ (forall id, find id (b_objects b) = snd rb id)
  /\ forall id p, find id (b_cache b) = Some p ->
     b_mutable b = false /\ exists f, find id (b_objects b) = Some f /\ process op_with_bag f = Ok p.

Lemma find_set id (f : functor V op) l j : find j (set_assoc V op id f l) = if j =? id then Some f else find j l.
Proof.
  induction l as [|[k g] l IH]; cbn.
  - destruct (j =? id); reflexivity.
  - destruct (Nat.eqb_spec id k) as [->|N]; cbn.
    + destruct (j =? k); reflexivity.
    + rewrite IH. destruct (Nat.eqb_spec j k) as [->|NJ]; [|reflexivity]. destruct (Nat.eqb_spec k id); [congruence|reflexivity].
Qed.
Lemma update_at_replace {A B} (R : A -> B -> Prop) k x y : forall (l : list A) l', Forall2 R l l' -> R x y -> k < length l ->
  Forall2 R (update_at k x l) (replace_nth k y l').
Proof.
  unfold replace_nth. induction k as [|k IH]; intros l l' F XY L; destruct F as [|a b l l' AB F]; cbn in *; try lia.
  - constructor; assumption.
  - constructor; [exact AB|]. apply IH; auto. lia.
Qed.
Lemma update_at_same {A} k (x : A) : forall l, nth_error l k = Some x -> update_at k x l = l.
Proof. induction k as [|k IH]; intros [|a l] H; cbn in *; try discriminate; [congruence|]. f_equal. auto. Qed.
Lemma Forall2_nth {A B} (R : A -> B -> Prop) l l' k : Forall2 R l l' ->
  match nth_error l k, nth_error l' k with Some a, Some b => R a b | None, None => True | _, _ => False end.
Proof. intros F. revert k. induction F as [|a b l l' AB F IH]; intros [|k]; cbn; [exact I|exact I|exact AB|apply IH]. Qed.
Lemma update_at_like {A B} (R : A -> B -> Prop) k x y : forall (l : list A) l', Forall2 R l l' -> nth_error l' k = Some y -> R x y ->
  Forall2 R (update_at k x l) l'.
Proof.
  induction k as [|k IH]; intros l l' F N XY; destruct F as [|a b l l' AB F]; cbn in *; try discriminate.
  - injection N as ->. constructor; assumption.
  - constructor; [exact AB|]. eapply IH; eassumption.
Qed.

Lemma fallbacks_like w (rw : list (bool * (nat -> option (functor V op)))) ks : Forall2 like w rw ->
  match fallbacks_of V op w ks with
  | Some l => forallb (fun k => match nth_error rw k with Some (mutable, _) => negb mutable | None => false end) ks = true
      /\ Forall2 (fun b k => exists objects m, nth_error rw k = Some (m, objects) /\ forall id, find id (b_objects b) = objects id) l ks
  | None => forallb (fun k => match nth_error rw k with Some (mutable, _) => negb mutable | None => false end) ks = false
  end.
Proof.
  intros F. induction ks as [|k ks IH]; cbn [fallbacks_of forallb]; [split; [reflexivity|constructor]|].
  pose proof (Forall2_nth like w rw k F) as N.
  destruct (nth_error w k) as [b|], (nth_error rw k) as [[m objs]|] eqn:NR; try contradiction; [|reflexivity].
  destruct N as (M & O & C). cbn in M, O. rewrite M. destruct (fallbacks_of V op w ks) as [l|].
  - destruct IH as [IH1 IH2]. rewrite IH1. destruct m; [reflexivity|]. split; [reflexivity|]. constructor; [|exact IH2].
    exists objs, false. auto.
  - rewrite IH. apply andb_false_r.
Qed.

Lemma step_like w rw e : Forall2 like w rw ->
  Forall2 like (fst (step w e)) (fst (ref_step result rw e)) /\ snd (step w e) = snd (ref_step result rw e).
Proof.
  intros F. destruct e as [|k id name i|k|k im|ks|k id args kwnames]; cbn [FunctorModel.step ref_step].
  - split; [|reflexivity]. apply Forall2_app; [exact F|]. constructor; [|constructor]. split; [reflexivity|]. split; [reflexivity|]. intros id p H. discriminate.
  - pose proof (Forall2_nth like w rw k F) as N. destruct (nth_error w k) as [b|] eqn:NW, (nth_error rw k) as [[m objs]|]; try contradiction; [|auto].
    destruct N as (M & O & C). cbn in M, O. rewrite M. destruct m; [|cbn; auto]. cbn [fst snd]. split; [|reflexivity].
    apply update_at_replace; [exact F| |apply nth_error_Some; congruence].
    unfold write. split; [cbn; exact M|]. split.
    + intros j. cbn. rewrite find_set, !O. reflexivity.
    + intros j p H. cbn in H. destruct (C j p H) as [Q _]. congruence.
  - pose proof (Forall2_nth like w rw k F) as N. destruct (nth_error w k) as [b|] eqn:NW, (nth_error rw k) as [[m objs]|]; try contradiction; [|auto].
    destruct N as (M & O & C). cbn in M, O. cbn [fst snd]. split; [|reflexivity].
    apply update_at_replace; [exact F| |apply nth_error_Some; congruence].
    split; [reflexivity|]. split; [exact O|]. intros j p H. split; [reflexivity|]. apply (C j p H).
  - pose proof (Forall2_nth like w rw k F) as N. destruct (nth_error w k) as [b|] eqn:NW, (nth_error rw k) as [[m objs]|]; try contradiction; [|auto].
    destruct N as (M & O & C). cbn in M, O. cbn [fst snd]. split; [|reflexivity]. apply Forall2_app; [exact F|]. constructor; [|constructor].
    split; [reflexivity|]. split; [exact O|]. intros j p H. discriminate.
  - pose proof (fallbacks_like w rw ks F) as FL. destruct (fallbacks_of V op w ks) as [l|].
    2:{ rewrite FL. auto. }
    destruct FL as [-> FL]. cbn [fst snd]. split; [|reflexivity]. apply Forall2_app; [exact F|]. constructor; [|constructor].
    split; [reflexivity|]. split; [|intros j p H; discriminate]. intros id. cbn [layered b_objects snd]. rewrite find_map.
    set (found := fun k => match nth_error rw k with Some (_, objects) => objects id | None => None end).
    assert (FA : flat_map (attributes_in V op id) l = flat_map (fun k => match found k with Some f => f | None => [] end) ks).
    { clear - FL. induction FL as [|b k l ks (objs & m & NR & O) FL IH]; [reflexivity|]. cbn [flat_map].
      rewrite IH. f_equal. unfold attributes_in, found. rewrite NR, O. reflexivity. }
    assert (FE : In id (flat_map (fun b => map fst (b_objects b)) l) <-> existsb (fun k => match found k with Some _ => true | None => false end) ks = true).
    { clear - FL. induction FL as [|b k l ks (objs & m & NR & O) FL IH]; [cbn; split; [intros []|discriminate]|]. cbn [flat_map existsb].
      rewrite in_app_iff, orb_true_iff, IH. specialize (O id). pose proof (find_none (b_objects b) id) as FN. rewrite O in FN.
      assert (FK : found k = objs id) by (unfold found; rewrite NR; reflexivity). rewrite FK.
      destruct (objs id); [|split; (intros [Q|Q]; [|auto]); [exfalso; apply FN; auto|discriminate]].
      split; (intros [Q|Q]; [|auto]); [left; reflexivity|]. left. destruct (in_dec Nat.eq_dec id (map fst (b_objects b))) as [I|NI]; [exact I|].
      apply FN in NI. discriminate. }
    rewrite FA. destruct (existsb _ ks).
    + destruct (in_dec Nat.eq_dec id _) as [I|NI]; [reflexivity|]. exfalso. apply NI. apply FE. reflexivity.
    + destruct (in_dec Nat.eq_dec id _) as [I|NI]; [|reflexivity]. apply FE in I. discriminate.
  - pose proof (Forall2_nth like w rw k F) as N. destruct (nth_error w k) as [b|] eqn:NW, (nth_error rw k) as [[m objs]|] eqn:NR; try contradiction; [|auto].
    pose proof N as (M & O & C). cbn in M, O. unfold call_cached.
    rewrite <- O. destruct (find id (b_objects b)) as [f|] eqn:FO.
    2:{ cbn [fst snd]. rewrite update_at_same by exact NW. auto. }
    unfold FunctorModel.call. destruct (negb (is_functor f)).
    { cbn [fst snd]. rewrite update_at_same by exact NW. auto. }
    destruct (find id (b_cache b)) as [p|] eqn:FC.
    { destruct (C id p FC) as (_ & f' & FO' & PF). rewrite FO in FO'. injection FO' as <-. rewrite PF.
      cbn [fst snd]. rewrite update_at_same by exact NW. auto. }
    destruct (process op_with_bag f) as [p|er] eqn:PF.
    2:{ cbn [fst snd]. rewrite update_at_same by exact NW. auto. }
    unfold set_cached. destruct (b_mutable b) eqn:MB.
    { cbn [fst snd]. rewrite update_at_same by exact NW. auto. }
    rewrite FC. cbn [fst snd]. split; [|reflexivity].
    eapply update_at_like; [exact F|exact NR|]. split; [cbn; congruence|]. split; [exact O|].
    intros j q H. cbn in H |- *. split; [reflexivity|]. destruct (Nat.eqb_spec j id) as [->|NJ].
    + injection H as <-. exists f. auto.
    + apply (C j q H).
Qed.

Theorem steps_like l : steps [] l = ref_steps result [] l.
Proof.
  assert (G : forall l w rw, Forall2 like w rw -> steps w l = ref_steps result rw l).
  { clear l. induction l as [|e l IH]; intros w rw F; [reflexivity|]. cbn [FunctorModel.steps ref_steps].
    destruct (step_like w rw e F) as [A B]. destruct (step w e) as [w' r], (ref_step result rw e) as [rw' r']. cbn in A, B.
    subst r'. f_equal. apply IH. exact A. }
  apply G. constructor.
Qed.

End CallProofs.
