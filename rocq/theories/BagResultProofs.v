(** What each operation on bags does to what is read from them. *)
From Coq Require Import String NArith ZArith List Bool Arith Lia Permutation.
From Verif Require Import ObjectIdModel ObjectIdProofs SchemaModel ItemModel DictModel DictSpec DictProofs
  SourceModel SourceSpec SourceProofs BagModel CollProofs BagProofs LayerProofs ContainerProofs
  MergeModel MergeSourceProofs MergeFold MergeBigProofs MergeLayerProofs BagSpec MergeImplProofs UpdateProofs ReadProofs BagKeysProofs
  BagStateProofs BagStepProofs BagOpsProofs BagRunProofs BagReads BagViewProofs.
Import ListNotations.
Local Open Scope nat_scope.
Notation chain := BagModel.chain.

Section Results.
Variable asize : ObjectId -> N.
Hypothesis asize_ok : forall a, (asize a <= capacity a)%N.
Variable iter : dmap -> dmap.
Hypothesis any_order : forall m, Permutation (iter m) m.
Notation same_content := (same_content asize).
Notation same_bag := (same_bag asize).
Notation same_bags := (same_bags asize).
Notation merged := (merged asize).
Notation conflict := (conflict asize).
Notation inv := (inv asize).
Notation same_trans := (same_trans asize).
Notation same_sym := (same_sym asize).
Notation same_refl := (same_refl asize).
Notation bags_trans := (bags_trans asize).
Notation bags_refl := (bags_refl asize).
Notation history := (history asize).
Notation after := (after iter).
Notation all_unchanged := (all_unchanged asize).
Notation others_unchanged := (others_unchanged asize).

(** ** Writability *)
Definition w_at (s : list abag) (b : nat) : option bool := option_map writable (nth_error s b).
Lemma w_same s s' b : same_bags s s' -> w_at s' b = w_at s b.
Proof.
  intros F. unfold w_at. revert b. induction F as [|x y s s' (_ & W & _) F IH]; intros [|b]; cbn; auto. now rewrite W.
Qed.
Lemma w_set s b x y c : nth_error s b = Some y -> writable x = writable y -> w_at (set_bag s b x) c = w_at s c.
Proof.
  intros E W. unfold w_at. rewrite nth_set. destruct (Nat.eqb_spec c b) as [->|]; auto. rewrite E. cbn. now rewrite W.
Qed.
Lemma w_app s x c : c < length s -> w_at (s ++ [x]) c = w_at s c.
Proof. intros L. unfold w_at. now rewrite nth_error_app1. Qed.
Lemma step_writable s op s' ok b : step_spec asize s op s' ok -> b < length s -> op <> BMakeImmutable b -> w_at s' b = w_at s b.
Proof.
  intros St L Ne.
  assert (Sm : forall t, same_bags t s' -> w_at t b = w_at s b -> w_at s' b = w_at s b) by (intros t F <-; now apply w_same).
  assert (Ap : forall x, same_bags (s ++ [x]) s' -> w_at s' b = w_at s b) by (intros x F; eapply Sm; [exact F|now apply w_app]).
  assert (Se : forall c x d fs, nth_error s c = Some x -> writable x = true -> same_bags (set_bag s c (mkAbag d true fs)) s' -> w_at s' b = w_at s b).
  { intros c x d fs E M F. eapply Sm; [exact F|]. eapply w_set; eauto. }
  assert (Fa : same_bags s s' -> w_at s' b = w_at s b) by (intros F; eapply Sm; eauto).
  destruct op; cbn [step_spec] in *.
  - destruct St as [_ F]. eauto.
  - destruct (forallb _ _); destruct St as [_ F]; eauto.
  - destruct (nth_error s b0) as [[c w [|? ?]]|]; destruct St as [_ F]; eauto.
  - destruct (nth_error s b0) as [x|]; [destruct (writable x)|]; destruct St as [_ F]; eauto.
  - destruct (nth_error s b0) as [x|] eqn:E; destruct St as [_ F]; auto. eapply Sm; [exact F|]. unfold w_at. rewrite nth_set.
    destruct (Nat.eqb_spec b b0) as [->|]; [now contradiction Ne|reflexivity].
  - destruct (nth_error s b0) as [x|] eqn:E; [destruct (writable x) eqn:M|]; destruct St as [_ F]; auto. eapply Se; eauto.
  - destruct (nth_error s b0) as [x|] eqn:E; [destruct (writable x) eqn:M|]; destruct St as [_ F]; auto. eapply Se; eauto.
  - destruct (nth_error s b0) as [x|] eqn:E; [destruct (writable x) eqn:M|]; destruct St as [_ F]; auto. eapply Se; eauto.
  - destruct (nth_error s b0) as [x|] eqn:E; [destruct (writable x) eqn:M|]; destruct St as [_ F]; auto. eapply Se; eauto.
  - destruct (nth_error s b0) as [x|] eqn:E; [destruct (writable x) eqn:M|]; try (destruct St as [_ F]; now auto).
    destruct (write_effect _ _); destruct St as [_ F]; auto. eapply Se; eauto.
  - destruct (nth_error s b0) as [x|] eqn:E; [destruct (writable x) eqn:M|]; try (destruct St as [_ F]; now auto).
    destruct (write_effect _ _); destruct St as [_ F]; auto. eapply Se; eauto.
  - destruct (nth_error s b0) as [x|] eqn:E; [|destruct St; now auto]. destruct (nth_error s other) as [y|]; [|destruct St; now auto].
    destruct (writable x) eqn:M; [|destruct St; now auto]. destruct St as (c & F & _). eapply Se; eauto.
  - destruct (nth_error s b0); destruct St as [_ F]; eauto.
  - destruct (nth_error s b0) as [[c w [|? ?]]|]; destruct (nth_error s other); try (destruct St as [_ F]; now eauto).
    destruct St as (u & _ & _ & F). eauto.
Qed.
Lemma mutable_abs st b : is_mutable st b = match w_at (abs st) b with Some w => w | None => false end.
Proof. unfold is_mutable, w_at. rewrite abs_nth. now destruct (nth_error (bags st) b). Qed.

Lemma bags_len s s' : same_bags s s' -> length s = length s'.
Proof. induction 1; cbn; auto. Qed.

Lemma f_step_cong (f g : fmap) o : (forall k, g k = f k) -> forall k, f_step g o k = f_step f o k.
Proof.
  intros E k. destruct o; cbn; auto.
  - destruct (good_key _); auto. unfold f_set. now rewrite E.
  - destruct (good_key _) as [v'|]; auto. rewrite E. destruct (f v'); auto. unfold f_set. now rewrite E.
  - now rewrite E.
Qed.
Lemma effect_cong op c c' : op_ok asize op -> same_content c c' ->
  match write_effect op c, write_effect op c' with Some d, Some d' => same_content d d' | None, None => True | _, _ => False end.
Proof.
  intros O (A & B & C). destruct op; cbn [write_effect]; auto.
  - split; [|split]; cbn [c_attr c_list c_dict set_entry]; intros; auto. destruct (string_dec _ _); auto. destruct (oid_eq_dec _ _); auto. cbn. auto.
  - split; [|split]; cbn [c_attr c_list c_dict set_entry]; intros; auto. destruct (string_dec _ _); auto. destruct (last_write _ _); auto. cbn. auto.
  - split; [|split]; cbn [c_attr c_list c_dict set_entry]; intros; auto. destruct (a_find _ _ _); auto. destruct (oid_eq_dec _ _); auto.
  - destruct (ds_values _); [split; auto|]. split; [|split]; cbn [c_attr c_list c_dict set_entry]; intros; auto. destruct (string_dec _ _); auto. now rewrite A.
  - destruct (is_list _); auto. split; [|split]; cbn [c_attr c_list c_dict set_entry]; intros; auto. destruct (oid_eq_dec _ _); auto. now rewrite B.
  - destruct (_ || _); auto. split; [|split]; cbn [c_attr c_list c_dict set_entry]; intros; auto. destruct (oid_eq_dec _ _); auto. apply f_step_cong. intros. apply C. apply O.
Qed.

(** ** One more operation *)
Section Step.
Variables (ops : list bag_op) (op : bag_op).
Hypothesis Hi : history (ops ++ [op]).
Let st := after ops.
Let st' := after (ops ++ [op]).
Let ok := snd (step iter st op).
Lemma the_step : step_spec asize (abs st) op (abs st') ok.
Proof. exact (history_step asize asize_ok iter any_order ops op Hi). Qed.
Lemma before : history ops.
Proof. exact (history_app asize ops [op] Hi). Qed.
Lemma others b : writes_to b op = false \/ is_mutable st b = false -> op <> BMakeImmutable b -> has_bag st b ->
  has_bag st' b /\ same_content (seen st b) (seen st' b) /\ is_mutable st' b = is_mutable st b.
Proof.
  intros W Ne Hb. destruct (unchanged asize asize_ok iter any_order ops [op] b Hi Hb) as [A B].
  - destruct W as [W|W]; [left; cbn; now rewrite W|now right].
  - split; [exact A|]. split; [exact B|]. rewrite !mutable_abs. rewrite (step_writable _ op _ _ b the_step); auto. rewrite abs_len. exact Hb.
Qed.
Lemma others_ok b : (forall c, c <> b -> writes_to c op = false) -> (forall c, c <> b -> op <> BMakeImmutable c) -> others_unchanged st st' b.
Proof. intros W Ne c Hc N. apply others; auto. Qed.
Lemma all_ok : (forall c, writes_to c op = false) -> (forall c, op <> BMakeImmutable c) -> all_unchanged st st'.
Proof. intros W Ne c Hc. apply others; auto. Qed.
Lemma seen_st b : has_bag st b -> same_content (full (abs st) b) (seen st b).
Proof. intros. apply (after_seen asize asize_ok iter any_order ops b before); auto. Qed.
Lemma seen_st' b : has_bag st' b -> same_content (full (abs st') b) (seen st' b).
Proof. intros. apply (after_seen asize asize_ok iter any_order _ b Hi); auto. Qed.
Lemma st_tidy : tidy (abs st).
Proof. destruct (after_inv asize asize_ok iter any_order _ before) as [T I]. eapply inv_tidy; eauto. Qed.
Lemma mutable_bag b : is_mutable st b = true -> has_bag st b /\
  exists x, nth_error (abs st) b = Some x /\ writable x = true /\ falls x = [] /\ same_content (data x) (seen st b).
Proof.
  intros M. assert (Hb : has_bag st b).
  { unfold is_mutable in M. destruct (nth_error (bags st) b) eqn:E; [|easy]. apply nth_error_Some. congruence. }
  split; auto. rewrite mutable_abs in M. unfold w_at in M. destruct (nth_error (abs st) b) as [x|] eqn:E; [|easy]. cbn in M.
  exists x. split; auto. split; auto. assert (F := proj1 (st_tidy b x E) M). split; auto.
  eapply same_trans; [|apply seen_st; auto]. apply same_sym. now apply full_plain.
Qed.
Lemma immutable_bag b : has_bag st b -> is_mutable st b = false -> exists x, nth_error (abs st) b = Some x /\ writable x = false.
Proof.
  intros Hb M. rewrite mutable_abs in M. unfold w_at in M. unfold has_bag in Hb. rewrite <- abs_len in Hb.
  destruct (nth_error (abs st) b) as [x|] eqn:E; [|apply nth_error_None in E; lia]. eauto.
Qed.
(** the new state, where one bag changed *)
Lemma now_set b x c : nth_error (abs st) b = Some x -> falls x = [] -> same_bags (set_bag (abs st) b (mkAbag c true (falls x))) (abs st') ->
  has_bag st' b /\ same_content c (seen st' b) /\ is_mutable st' b = true.
Proof.
  intros E Fa F. assert (N := nth_set (abs st) b (mkAbag c true (falls x)) b). rewrite Nat.eqb_refl, E in N.
  destruct (bags_nth asize _ _ b _ F N) as (x' & E' & A & W & Fb). cbn in A, W, Fb.
  assert (Hb : has_bag st' b). { unfold has_bag. rewrite <- abs_len. apply nth_error_Some. congruence. }
  split; auto. split.
  - eapply same_trans; [exact A|]. eapply same_trans; [|apply seen_st'; auto]. apply same_sym, full_plain; auto. congruence.
  - rewrite mutable_abs. unfold w_at. rewrite E'. cbn. auto.
Qed.
(** the new state, with a new bag *)
Lemma now_new x : same_bags (abs st ++ [x]) (abs st') -> let n := length (bags st) in
  length (bags st') = S n /\ has_bag st' n /\ same_content (overlay (data x) (fold_right overlay empty_content (map (full (abs st')) (falls x)))) (seen st' n)
  /\ is_mutable st' n = writable x.
Proof.
  intros F n. assert (N : nth_error (abs st ++ [x]) n = Some x). { unfold n. rewrite <- abs_len, nth_error_app2, Nat.sub_diag by lia. reflexivity. }
  destruct (bags_nth asize _ _ n _ F N) as (x' & E' & A & W & Fb).
  assert (Ln : length (bags st') = S n). { rewrite <- abs_len. rewrite <- (bags_len _ _ F), app_length, abs_len. cbn. unfold n. lia. }
  assert (Hb : has_bag st' n) by (unfold has_bag; lia).
  split; auto. split; auto. split.
  - eapply same_trans; [|apply seen_st'; auto]. destruct (after_inv asize asize_ok iter any_order _ Hi) as [T I].
    rewrite (full_unfold (abs st') n x' (inv_tidy asize T st' I) E'), Fb. apply overlay_same; [exact A|apply same_refl].
  - rewrite mutable_abs. unfold w_at. rewrite E'. cbn. auto.
Qed.
Lemma now_plain c w : same_bags (abs st ++ [mkAbag c w []]) (abs st') -> let n := length (bags st) in
  length (bags st') = S n /\ has_bag st' n /\ same_content c (seen st' n) /\ is_mutable st' n = w /\ fallbacks_of st' n = [].
Proof.
  intros F n. destruct (now_new _ F) as (A & B & C & D). split; auto. split; auto. cbn in C. split; [eapply same_trans; [|exact C]; apply same_sym, overlay_empty|].
  split; [exact D|]. assert (N : nth_error (abs st ++ [mkAbag c w []]) n = Some (mkAbag c w [])). { unfold n. rewrite <- abs_len, nth_error_app2, Nat.sub_diag by lia. reflexivity. }
  destruct (bags_nth asize _ _ n _ F N) as (x' & E' & _ & _ & Fb). unfold fallbacks_of. rewrite abs_nth in E'.
  destruct (nth_error (bags st') n); [|easy]. injection E' as <-. exact Fb.
Qed.

(** *** Writes *)
Lemma last_ok : op_ok asize op.
Proof. clear -Hi. inversion Hi as [E|ops' op' _ O _ E]; [destruct ops; easy|]. apply app_inj_tail in E as [_ ->]. exact O. Qed.
Lemma writes_target b c : write_target op = Some b -> writes_to c op = (c =? b).
Proof. destruct op; cbn; intros E; try easy; injection E as ->; apply Nat.eqb_sym. Qed.
Lemma write_result b : write_target op = Some b -> is_mutable st b = true ->
  is_mutable st' b = true /\
  match write_effect op (seen st b) with
  | Some c => ok = true /\ same_content c (seen st' b)
  | None => ok = false /\ same_content (seen st b) (seen st' b)
  end.
Proof.
  intros W M. destruct (mutable_bag b M) as (Hb & x & E & Wx & Fx & Sx). assert (S := the_step).
  assert (G : match write_effect op (data x) with
              | Some c => ok = true /\ same_bags (set_bag (abs st) b (mkAbag c true (falls x))) (abs st')
              | None => ok = false /\ same_bags (abs st) (abs st') end).
  { destruct op; try easy; cbn in W; injection W as ->; cbn [step_spec] in S; rewrite E, Wx in S; exact S. }
  assert (K := effect_cong op _ _ last_ok Sx). destruct (write_effect op (data x)) as [c|] eqn:Ec; destruct (write_effect op (seen st b)) as [c'|]; try easy.
  - destruct G as [Ok F]. destruct (now_set b x c E Fx F) as (_ & A & B). split; auto. split; auto. eapply same_trans; [apply same_sym; exact K|exact A].
  - destruct G as [Ok F]. assert (F2 : same_bags (set_bag (abs st) b (mkAbag (data x) true (falls x))) (abs st')).
    { rewrite set_bag_nth; auto. rewrite E. f_equal. destruct x. cbn in Wx. now subst. }
    destruct (now_set b x _ E Fx F2) as (_ & A & B). split; auto. split; auto. eapply same_trans; [apply same_sym; exact Sx|exact A].
Qed.
Lemma write_others b : write_target op = Some b -> others_unchanged st st' b.
Proof.
  intros W. apply others_ok.
  - intros c N. rewrite (writes_target b c W). now apply Nat.eqb_neq.
  - intros c N ->. easy.
Qed.
Lemma write_refused b : writes_to b op = true -> has_bag st b -> is_mutable st b = false -> ok = false.
Proof.
  intros W Hb M. destruct (immutable_bag b Hb M) as (x & E & Wx). assert (S := the_step).
  destruct op; cbn in W; try easy; apply Nat.eqb_eq in W; subst b; cbn [step_spec] in S; rewrite E, Wx in S; try exact (proj1 S).
  destruct (nth_error (abs st) other); exact (proj1 S).
Qed.
End Step.

(** ** Many writes *)
Definition content_after (b : nat) (c : content) (op : bag_op) : content :=
  mkContent (fun attr o => attr_after b attr o (c_attr c attr o) op) (fun o => list_after b o (c_list c o) op) (fun o => dict_after b o (c_dict c o) op).
Lemma content_write b op c : write_target op = Some b ->
  same_content (match write_effect op c with Some d => d | None => c end) (content_after b c op).
Proof.
  intros W. destruct op; cbn in W; try easy; injection W as ->; (split; [|split]); intros; cbn [content_after c_attr c_list c_dict attr_after list_after dict_after];
    rewrite ?Nat.eqb_refl; cbn [andb]; cbn [write_effect]; auto.
  - cbn [set_entry c_attr]. destruct (string_dec _ _) as [->|]; auto. now destruct (oid_eq_dec _ _).
  - cbn [set_entry c_attr]. destruct (string_dec _ _) as [->|]; auto.
  - destruct (ds_values _); auto. cbn [set_entry c_attr]. destruct (string_dec _ _) as [->|]; auto.
  - now destruct (ds_values _).
  - now destruct (ds_values _).
  - now destruct (is_list _).
  - destruct (is_list _); cbn; auto. destruct (oid_eq_dec o o0) as [->|]; auto.
  - now destruct (is_list _).
  - now destruct (_ || _).
  - now destruct (_ || _).
  - destruct (_ || _); cbn; auto. destruct (oid_eq_dec o o0) as [->|]; auto.
Qed.
Lemma content_other b op c : write_target op <> Some b -> same_content c (content_after b c op).
Proof.
  intros W. assert (Ne : forall x, Some x <> Some b -> (x =? b) = false) by (intros x N; apply Nat.eqb_neq; congruence).
  destruct op; cbn in W; (split; [|split]); intros; cbn [content_after c_attr c_list c_dict attr_after list_after dict_after];
    rewrite ?Ne by auto; reflexivity.
Qed.
Lemma fold_cong b ops2 : Forall (op_ok asize) ops2 -> forall c c', same_content c c' -> same_content (fold_left (content_after b) ops2 c) (fold_left (content_after b) ops2 c').
Proof.
  induction 1 as [|op ops2 O F IH]; intros c c' S; cbn; auto. apply IH.
  destruct (match write_target op with Some x => if x =? b then left I else right I | None => right I end : {True} + {True}) eqn:D.
  - destruct (write_target op) as [x|] eqn:W; [|easy]. destruct (Nat.eqb_spec x b) as [->|]; [|easy].
    assert (K := effect_cong op c c' O S). eapply same_trans; [apply same_sym, content_write; auto|]. eapply same_trans; [|apply content_write; auto].
    destruct (write_effect op c), (write_effect op c'); easy.
  - assert (W : write_target op <> Some b). { destruct (write_target op) as [x|]; [|easy]. destruct (Nat.eqb_spec x b); congruence. }
    eapply same_trans; [apply same_sym, content_other; auto|]. eapply same_trans; [exact S|]. now apply content_other.
Qed.
Lemma history_ops ops ops2 : history (ops ++ ops2) -> Forall (op_ok asize) ops2.
Proof.
  induction ops2 as [|op ops2 IH] using rev_ind; intros Hi; [constructor|]. rewrite app_assoc in Hi. apply Forall_app. split.
  - apply IH. eapply history_app; eauto.
  - constructor; [|constructor]. eapply last_ok; eauto.
Qed.
Theorem writes_add_up ops ops2 b : history (ops ++ ops2) -> is_mutable (after ops) b = true ->
  forallb (fun op => negb (merges_or_closes b op)) ops2 = true ->
  is_mutable (after (ops ++ ops2)) b = true /\
  same_content (fold_left (content_after b) ops2 (seen (after ops) b)) (seen (after (ops ++ ops2)) b).
Proof.
  intros Hi M. revert Hi. induction ops2 as [|op ops2 IH] using rev_ind; intros Hi C.
  - rewrite app_nil_r. split; auto. apply same_refl.
  - rewrite app_assoc in *. rewrite forallb_app in C. apply andb_true_iff in C as [C1 C2]. cbn in C2. rewrite andb_true_r in C2. apply negb_true_iff in C2.
    destruct (IH (history_app asize _ _ Hi) C1) as [M1 S1]. rewrite fold_left_app. cbn [fold_left].
    assert (Fo := history_ops _ _ Hi). assert (O := last_ok _ _ Hi).
    assert (S2 : same_content (content_after b (fold_left (content_after b) ops2 (seen (after ops) b)) op) (content_after b (seen (after (ops ++ ops2)) b) op)).
    { exact (fold_cong b [op] Fo _ _ S1). }
    destruct (match write_target op with Some x => if x =? b then left I else right I | None => right I end : {True} + {True}) eqn:D.
    + destruct (write_target op) as [x|] eqn:W; [|easy]. destruct (Nat.eqb_spec x b) as [->|]; [|easy].
      destruct (write_result _ _ Hi b W M1) as [M2 R]. split; auto. eapply same_trans; [exact S2|].
      eapply same_trans; [apply same_sym, content_write; auto|]. destruct (write_effect _ _); apply R.
    + assert (W : write_target op <> Some b). { destruct (write_target op) as [x|]; [|easy]. destruct (Nat.eqb_spec x b); congruence. }
      assert (W2 : writes_to b op = false).
      { assert (Ne : forall x, Some x <> Some b -> (x =? b) = false) by (intros x N; apply Nat.eqb_neq; congruence). destruct op; cbn in *; auto. }
      destruct (others _ _ Hi b (or_introl W2)) as (Hb & S3 & M3).
      * intros ->. cbn in C2. now rewrite Nat.eqb_refl in C2.
      * destruct (mutable_bag _ op Hi b M1) as [Hb _]. exact Hb.
      * split; [congruence|]. eapply same_trans; [exact S2|]. eapply same_trans; [apply same_sym, content_other; auto|exact S3].
Qed.

(** ** Other operations *)
Lemma ops_unchanged ops op : history (ops ++ [op]) -> (forall c, writes_to c op = false) -> (forall c, op <> BMakeImmutable c) ->
  all_unchanged (after ops) (after (ops ++ [op])).
Proof. intros. now apply all_ok. Qed.
Lemma new_result ops mut : history (ops ++ [BNew mut]) ->
  let st := after ops in let st' := after (ops ++ [BNew mut]) in let n := length (bags st) in
  length (bags st') = S n /\ same_content empty_content (seen st' n) /\ is_mutable st' n = mut /\ all_unchanged st st'.
Proof.
  intros Hi. cbn zeta. assert (S := the_step _ _ Hi). cbn [step_spec] in S. destruct S as [_ F].
  destruct (now_plain _ _ Hi _ _ F) as (A & _ & B & C & _). split; auto. split; auto. split; auto. now apply ops_unchanged.
Qed.
Lemma fork_result ops b imm : history (ops ++ [BFork b imm]) ->
  let st := after ops in let st' := after (ops ++ [BFork b imm]) in let n := length (bags st) in
  has_bag st b -> fallbacks_of st b = [] ->
  snd (step iter st (BFork b imm)) = true /\ length (bags st') = S n /\ same_content (seen st b) (seen st' n) /\ is_mutable st' n = negb imm /\
  fallbacks_of st' n = [] /\ all_unchanged st st'.
Proof.
  intros Hi. cbn zeta. intros Hb Fb. assert (S := the_step _ _ Hi). cbn [step_spec] in S. assert (Sn := seen_st _ _ Hi b Hb).
  destruct (bag_in _ _ Hb) as [x Ex]. unfold fallbacks_of in Fb. rewrite Ex in Fb. rewrite abs_nth, Ex in S. cbn [option_map abs_bag] in S.
  unfold abs_bag in S. rewrite Fb in S. destruct S as [Ok F]. split; [exact Ok|].
  destruct (now_plain _ _ Hi _ _ F) as (A & _ & B & C & D). split; auto. split; [|split; auto; split; auto; now apply ops_unchanged].
  eapply same_trans; [apply same_sym, Sn|]. eapply same_trans; [eapply full_plain; [rewrite abs_nth, Ex; reflexivity|exact Fb]|exact B].
Qed.
Lemma fork_refused ops b imm : history (ops ++ [BFork b imm]) -> fallbacks_of (after ops) b <> [] ->
  snd (step iter (after ops) (BFork b imm)) = false /\ length (bags (after (ops ++ [BFork b imm]))) = length (bags (after ops)).
Proof.
  intros Hi Fb. assert (S := the_step _ _ Hi). cbn [step_spec] in S. unfold fallbacks_of in Fb. rewrite abs_nth in S.
  destruct (nth_error (bags (after ops)) b) as [x|]; [|easy]. cbn [option_map] in S. unfold abs_bag in S. destruct (fallbacks x) as [|f r]; [easy|].
  destruct S as [-> F]. split; auto. apply bags_len in F. now rewrite !abs_len in F.
Qed.
Lemma freeze_result ops b : history (ops ++ [BFreeze b]) ->
  let st := after ops in let st' := after (ops ++ [BFreeze b]) in
  let r := if is_mutable st b then length (bags st) else b in
  has_bag st b ->
  snd (step iter st (BFreeze b)) = true /\ has_bag st' r /\ same_content (seen st b) (seen st' r) /\ is_mutable st' r = false /\ all_unchanged st st'.
Proof.
  intros Hi. cbn zeta. intros Hb. assert (S := the_step _ _ Hi). cbn [step_spec] in S.
  assert (U : all_unchanged (after ops) (after (ops ++ [BFreeze b]))) by now apply ops_unchanged.
  destruct (is_mutable (after ops) b) eqn:M.
  - destruct (mutable_bag _ _ Hi b M) as (_ & x & Ex & Wx & Fx & Sx). rewrite Ex, Wx in S. destruct S as [Ok F]. split; auto.
    destruct (now_plain _ _ Hi _ _ F) as (A & B & C & D & _). split; auto. split; [|auto]. eapply same_trans; [apply same_sym, Sx|exact C].
  - destruct (immutable_bag ops (BFreeze b) b Hb M) as (x & Ex & Wx). rewrite Ex, Wx in S. destruct S as [Ok F]. split; auto.
    destruct (U b Hb) as (A & B & C). split; auto. split; auto. split; [congruence|auto].
Qed.
Lemma close_result ops b : history (ops ++ [BMakeImmutable b]) ->
  let st := after ops in let st' := after (ops ++ [BMakeImmutable b]) in
  has_bag st b ->
  snd (step iter st (BMakeImmutable b)) = true /\ has_bag st' b /\ same_content (seen st b) (seen st' b) /\ is_mutable st' b = false /\ others_unchanged st st' b.
Proof.
  intros Hi. cbn zeta. intros Hb. assert (S := the_step _ _ Hi). cbn [step_spec] in S. destruct (bag_in _ _ Hb) as [x Ex].
  rewrite abs_nth, Ex in S. cbn [option_map] in S. destruct S as [Ok F]. split; auto.
  destruct (unchanged asize asize_ok iter any_order ops [BMakeImmutable b] b Hi Hb) as [A B]; [now left|]. split; auto. split; auto. split.
  - rewrite mutable_abs, (w_same _ _ b F). unfold w_at. rewrite nth_set, Nat.eqb_refl, abs_nth, Ex. reflexivity.
  - apply others_ok; auto. intros c N E. congruence.
Qed.
Lemma fallbacks_result ops fbs : history (ops ++ [BWithFallbacks fbs]) ->
  let st := after ops in let st' := after (ops ++ [BWithFallbacks fbs]) in let n := length (bags st) in
  forallb (fun f => (f <? length (bags st)) && negb (is_mutable st f)) fbs = true ->
  snd (step iter st (BWithFallbacks fbs)) = true /\ length (bags st') = S n /\
  same_content (fold_right overlay empty_content (map (seen st) fbs)) (seen st' n) /\ is_mutable st' n = false /\ all_unchanged st st'.
Proof.
  intros Hi. cbn zeta. intros Hf. assert (S := the_step _ _ Hi). cbn [step_spec] in S.
  assert (U : all_unchanged (after ops) (after (ops ++ [BWithFallbacks fbs]))) by now apply ops_unchanged.
  assert (P : forall f, In f fbs -> has_bag (after ops) f /\ is_mutable (after ops) f = false).
  { intros f If. rewrite forallb_forall in Hf. specialize (Hf f If). apply andb_true_iff in Hf as [A B]. apply Nat.ltb_lt in A. now apply negb_true_iff in B. }
  assert (Q : forallb (fun f => match nth_error (abs (after ops)) f with Some x => negb (writable x) | None => false end) fbs = true).
  { apply forallb_forall. intros f If. destruct (P f If) as [A B]. destruct (immutable_bag ops (BWithFallbacks fbs) f A B) as (x & Ex & Wx). now rewrite Ex, Wx. }
  rewrite Q in S. destruct S as [Ok F]. split; auto. destruct (now_new _ _ Hi _ F) as (A & B & C & D). split; auto. cbn [data writable falls] in *.
  split; [|auto]. eapply same_trans; [|exact C]. eapply same_trans; [|apply same_sym; split; [|split]; intros; cbn; auto].
  apply fold_overlay_same. intros f If. destruct (P f If) as [Hf' _]. destruct (U f Hf') as (Hf2 & S2 & _).
  eapply same_trans; [exact S2|]. apply same_sym, (seen_st' _ _ Hi). exact Hf2.
Qed.
Lemma fallbacks_refused ops fbs : history (ops ++ [BWithFallbacks fbs]) ->
  forallb (fun f => (f <? length (bags (after ops))) && negb (is_mutable (after ops) f)) fbs = false ->
  snd (step iter (after ops) (BWithFallbacks fbs)) = false.
Proof.
  intros Hi Hf. assert (S := the_step _ _ Hi). cbn [step_spec] in S.
  destruct (forallb _ fbs) eqn:E in S; [|exact (proj1 S)]. enough (X : forallb (fun f => (f <? length (bags (after ops))) && negb (is_mutable (after ops) f)) fbs = true) by congruence.
  apply forallb_forall. intros f If. rewrite forallb_forall in E. specialize (E f If). rewrite mutable_abs. unfold w_at.
  destruct (nth_error (abs (after ops)) f) as [x|] eqn:Ex; [|easy]. cbn. apply andb_true_iff. split; auto.
  apply Nat.ltb_lt. rewrite <- abs_len. apply nth_error_Some. congruence.
Qed.
Lemma merge_result ops b other ow ad asch : history (ops ++ [BMerge b other ow ad asch]) ->
  let st := after ops in let st' := after (ops ++ [BMerge b other ow ad asch]) in
  is_mutable st b = true -> has_bag st other ->
  others_unchanged st st' b /\ is_mutable st' b = true /\
  if snd (step iter st (BMerge b other ow ad asch))
  then merged (policy_of ow ad) (policy_of ow asch) (seen st b) (seen st other) (seen st' b)
  else conflict (policy_of ow ad) (policy_of ow asch) (seen st b) (seen st other).
Proof.
  intros Hi. cbn zeta. intros M Ho. assert (S := the_step _ _ Hi). cbn [step_spec] in S.
  destruct (mutable_bag _ _ Hi b M) as (Hb & x & Ex & Wx & Fx & Sx). rewrite Ex, Wx in S.
  destruct (bag_in _ _ Ho) as [y Ey]. assert (So := seen_st _ _ Hi other Ho). rewrite (abs_nth (after ops) other), Ey in S. cbn [option_map] in S.
  destruct S as (c & F & R). destruct (now_set _ _ Hi b x c Ex Fx F) as (_ & A & B). split.
  - apply others_ok; [exact Hi| |discriminate]. intros c' N. cbn. apply Nat.eqb_neq. congruence.
  - split; auto. destruct (snd _).
    + eapply merged_cong; eauto.
    + eapply conflict_cong; eauto.
Qed.
Lemma merge_fallbacks_result ops b : history (ops ++ [BMergeFallbacks b]) ->
  let st := after ops in let st' := after (ops ++ [BMergeFallbacks b]) in let n := length (bags st) in
  has_bag st b ->
  snd (step iter st (BMergeFallbacks b)) = true /\ length (bags st') = S n /\ same_content (seen st b) (seen st' n) /\ is_mutable st' n = true /\
  fallbacks_of st' n = [] /\ all_unchanged st st'.
Proof.
  intros Hi. cbn zeta. intros Hb. assert (S := the_step _ _ Hi). cbn [step_spec] in S. destruct (bag_in _ _ Hb) as [x Ex]. assert (Sb := seen_st _ _ Hi b Hb).
  rewrite abs_nth, Ex in S. cbn [option_map] in S. destruct S as [Ok F]. split; auto. destruct (now_plain _ _ Hi _ _ F) as (A & _ & B & C & D).
  split; auto. split; [eapply same_trans; [apply same_sym, Sb|exact B]|]. split; auto. split; auto. now apply ops_unchanged.
Qed.
Lemma update_result ops b other : history (ops ++ [BUpdate b other]) ->
  let st := after ops in let st' := after (ops ++ [BUpdate b other]) in let n := length (bags st) in
  has_bag st b -> has_bag st other -> fallbacks_of st b = [] ->
  snd (step iter st (BUpdate b other)) = true /\ length (bags st') = S n /\ is_update asize (seen st b) (seen st other) (seen st' n) /\ is_mutable st' n = false /\
  fallbacks_of st' n = [] /\ all_unchanged st st'.
Proof.
  intros Hi. cbn zeta. intros Hb Ho Fb. assert (S := the_step _ _ Hi). cbn [step_spec] in S. assert (Sb := seen_st _ _ Hi b Hb). assert (So := seen_st _ _ Hi other Ho).
  destruct (bag_in _ _ Hb) as [x Ex]. destruct (bag_in _ _ Ho) as [y Ey]. unfold fallbacks_of in Fb. rewrite Ex in Fb.
  rewrite !abs_nth, Ex, Ey in S. cbn [option_map] in S. unfold abs_bag at 1 in S. rewrite Fb in S. destruct S as (u & Iu & Ok & F).
  split; auto. destruct (now_plain _ _ Hi _ _ F) as (A & _ & B & C & D). split; auto. split; [|split; auto; split; auto; now apply ops_unchanged].
  eapply update_cong; [| |exact B|exact Iu]; [|exact So]. eapply same_trans; [|exact Sb]. apply same_sym. eapply same_trans; [eapply full_plain; [rewrite abs_nth, Ex; reflexivity|exact Fb]|apply same_refl].
Qed.

(** ** Fallbacks *)
Lemma tidy_after ops : history ops -> tidy (abs (after ops)).
Proof. intros Hi. destruct (after_inv asize asize_ok iter any_order _ Hi) as [T I]. eapply inv_tidy; eauto. Qed.
Lemma fallback_bag ops b f : history ops -> In f (fallbacks_of (after ops) b) -> f < b /\ has_bag (after ops) f /\ is_mutable (after ops) f = false.
Proof.
  intros Hi If. assert (Ti := tidy_after ops Hi). unfold fallbacks_of in If. destruct (nth_error (bags (after ops)) b) as [x|] eqn:E; [|easy].
  assert (Ea : nth_error (abs (after ops)) b = Some (abs_bag (layers (after ops)) x)) by (rewrite abs_nth, E; reflexivity).
  destruct (proj2 (Ti b _ Ea) f If) as (L & y & Ey & Wy). split; auto. split.
  - unfold has_bag. rewrite <- abs_len. apply nth_error_Some. congruence.
  - rewrite mutable_abs. unfold w_at. now rewrite Ey.
Qed.
Theorem seen_fallbacks ops b : history ops -> has_bag (after ops) b ->
  same_content (overlay (own_seen (after ops) b) (fold_right overlay empty_content (map (seen (after ops)) (fallbacks_of (after ops) b)))) (seen (after ops) b).
Proof.
  intros Hi Hb. assert (Ti := tidy_after ops Hi). destruct (bag_in _ _ Hb) as [x E].
  assert (Ea : nth_error (abs (after ops)) b = Some (abs_bag (layers (after ops)) x)) by (rewrite abs_nth, E; reflexivity).
  eapply same_trans; [|apply (after_seen asize asize_ok iter any_order); auto]. rewrite (full_unfold _ b _ Ti Ea). apply overlay_same.
  - assert (O := own_reads asize (after ops) b). unfold own in O. rewrite Ea in O. now apply same_sym.
  - assert (Fe : fallbacks_of (after ops) b = fallbacks x) by (unfold fallbacks_of; now rewrite E). rewrite Fe.
    apply fold_overlay_same. intros f If. apply same_sym, (after_seen asize asize_ok iter any_order); auto.
    eapply fallback_bag; eauto. rewrite Fe. exact If.
Qed.
Lemma first_answer_app {A} (l r : list (option A)) : first_answer (l ++ r) = first_of (first_answer l) (first_answer r).
Proof. unfold first_answer. induction l as [|x l IH]; cbn; auto. rewrite IH. now destruct x. Qed.
Lemma depth_first_ok (A : Type) (get own : nat -> option A) st :
  (forall b, has_bag st b -> get b = first_of (own b) (first_answer (map get (fallbacks_of st b)))) ->
  (forall b f, In f (fallbacks_of st b) -> f < b /\ has_bag st f) ->
  forall b, has_bag st b -> get b = first_answer (map own (depth_first st b)).
Proof.
  intros G F. assert (X : forall d b, b < d -> has_bag st b -> get b = first_answer (map own (depth_first_from st d b))).
  { induction d as [|d IH]; intros b L Hb; [lia|]. cbn [depth_first_from map]. rewrite (G b Hb). unfold first_answer at 2. cbn [fold_right]. f_equal.
    fold (first_answer (map own (flat_map (depth_first_from st d) (fallbacks_of st b)))).
    assert (Y : forall l, (forall f, In f l -> f < d /\ has_bag st f) -> first_answer (map get l) = first_answer (map own (flat_map (depth_first_from st d) l))).
    { induction l as [|f l IHl]; intros Hl; cbn [map flat_map]; auto. rewrite map_app, first_answer_app.
      destruct (Hl f (or_introl eq_refl)) as [Lf Hf]. rewrite <- (IH f Lf Hf), <- IHl; auto. intros g Ig. apply Hl. now right. }
    apply Y. intros f If. destruct (F b f If). split; auto. lia. }
  intros b Hb. apply X; auto.
Qed.
Lemma fold_attr l attr o (f : nat -> content) : c_attr (fold_right overlay empty_content (map f l)) attr o = first_answer (map (fun x => c_attr (f x) attr o) l).
Proof. induction l as [|x l IH]; cbn; auto. now rewrite IH. Qed.
Lemma fold_list l o (f : nat -> content) : c_list (fold_right overlay empty_content (map f l)) o = first_answer (map (fun x => c_list (f x) o) l).
Proof. induction l as [|x l IH]; cbn; auto. now rewrite IH. Qed.
Lemma fold_dict l o k (f : nat -> content) : c_dict (fold_right overlay empty_content (map f l)) o k = first_answer (map (fun x => c_dict (f x) o k) l).
Proof. induction l as [|x l IH]; cbn; auto. now rewrite IH. Qed.
Theorem seen_depth_first ops b : history ops -> has_bag (after ops) b ->
  let st := after ops in
  (forall attr o, exists_object asize o -> c_attr (seen st b) attr o = first_answer (map (fun f => c_attr (own_seen st f) attr o) (depth_first st b))) /\
  (forall o, wf o -> c_list (seen st b) o = first_answer (map (fun f => c_list (own_seen st f) o) (depth_first st b))) /\
  (forall o k, wf o -> c_dict (seen st b) o k = first_answer (map (fun f => c_dict (own_seen st f) o k) (depth_first st b))).
Proof.
  intros Hi Hb. cbn zeta. assert (Fo : forall b f, In f (fallbacks_of (after ops) b) -> f < b /\ has_bag (after ops) f).
  { intros c f If. destruct (fallback_bag ops c f Hi If) as (A & B & _). auto. }
  split; [|split]; intros.
  - apply (depth_first_ok _ (fun f => c_attr (seen (after ops) f) attr o)); auto. intros c Hc.
    destruct (seen_fallbacks ops c Hi Hc) as (A & _ & _). rewrite A by auto. cbn [overlay c_attr]. now rewrite fold_attr.
  - apply (depth_first_ok _ (fun f => c_list (seen (after ops) f) o)); auto. intros c Hc.
    destruct (seen_fallbacks ops c Hi Hc) as (_ & A & _). rewrite A by auto. cbn [overlay c_list]. now rewrite fold_list.
  - apply (depth_first_ok _ (fun f => c_dict (seen (after ops) f) o k)); auto. intros c Hc.
    destruct (seen_fallbacks ops c Hi Hc) as (_ & _ & A). rewrite A by auto. cbn [overlay c_dict]. now rewrite fold_dict.
Qed.
Lemma first_answer_repeat {A} (l1 l2 l3 : list (option A)) x :
  first_answer (l1 ++ x :: l2 ++ x :: l3) = first_answer (l1 ++ x :: l2 ++ l3).
Proof.
  rewrite !first_answer_app. unfold first_answer at 2 4. cbn [fold_right]. fold (first_answer (l2 ++ x :: l3)) (first_answer (l2 ++ l3)).
  rewrite !first_answer_app. unfold first_answer at 3. cbn [fold_right]. fold (first_answer l3). now destruct x.
Qed.
Lemma repeat_overlay l1 l2 l3 f (g : nat -> content) :
  same_content (fold_right overlay empty_content (map g (l1 ++ f :: l2 ++ l3))) (fold_right overlay empty_content (map g (l1 ++ f :: l2 ++ f :: l3))).
Proof.
  split; [|split]; intros; rewrite ?fold_attr, ?fold_list, ?fold_dict, !map_app; cbn [map]; rewrite !map_app; cbn [map]; apply first_answer_repeat.
Qed.

(** ** All of it *)
Theorem all_reached ops : history ops -> reaches asize ops (results iter ops init) (abs (after ops)).
Proof.
  intros Hi. induction ops as [|op ops IH] using rev_ind; [constructor|].
  assert (R : forall st, results iter (ops ++ [op]) st = results iter ops st ++ [snd (step iter (run iter ops st) op)]).
  { clear. unfold run. induction ops as [|x ops IH]; intros st; cbn [results app fold_left]; [reflexivity|]. now rewrite IH. }
  rewrite R. eapply reaches_next; [apply IH; eapply history_app; eauto|]. apply (history_step asize asize_ok iter any_order ops op Hi).
Qed.
End Results.
