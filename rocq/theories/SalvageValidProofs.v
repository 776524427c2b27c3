(** Salvage emits valid JSON (lemmas for C36): from the rules to whole inputs. *)
From Coq Require Import String Ascii NArith ZArith List Bool Lia ZifyBool ZifyN.
From Verif Require Import JsonModel JsonSpec JsonChunkProofs SalvageModel SalvageSpec SalvageProofs.
Import ListNotations.
Open Scope N_scope.

Section Whole.
Variable opts : salvage_options.
Notation nan := (o_nan opts).
Notation inv := (inv opts).
Notation rest := (rest opts).
Notation ctx := (ctx opts).

(** ** The end of the input: closing what is open *)
Lemma close_after : forall k key sep out, ctx k After out ->
  match k with CObject :: _ => key = true | _ => True end ->
  ctx [] After (out ++ close_all k key sep).
Proof.
  induction k as [|[|] k IH]; intros key sep out H Hk; cbn [close_all].
  - rewrite app_nil_r. exact H.
  - rewrite app_assoc. apply IH.
    + apply ctx_close_arr. right. exact H.
    + destruct k as [|[|] k']; auto.
  - subst key. cbn [app]. rewrite app_assoc. apply IH.
    + apply ctx_close_obj. right. exact H.
    + destruct k as [|[|] k']; auto.
Qed.
Lemma close_rest s out : rest s out -> ctx [] After (out ++ close_all (s_stack s) (s_key s) (s_sep s)).
Proof.
  intros [Hk H]. unfold key_ok in Hk. destruct (s_stack s) as [|[|] k] eqn:Es.
  - cbn [close_all]. rewrite app_nil_r. destruct (s_sep s); [exact H|]. left. apply H.
  - cbn [close_all]. rewrite app_assoc. apply close_after.
    + apply ctx_close_arr. destruct (s_sep s); [right; exact H|left; apply H].
    + destruct k as [|[|] k']; auto.
  - cbn [close_all]. destruct (s_key s) eqn:Ek.
    + cbn [app]. rewrite app_assoc. apply close_after.
      * apply ctx_close_obj. destruct (s_sep s); [right; exact H|left; apply H].
      * destruct k as [|[|] k']; auto.
    + destruct (s_sep s); [|destruct H as [_ H]; discriminate].
      replace (out ++ (lit ":" ++ lit "null") ++ lit "}" ++ close_all k match k with CObject :: _ => true | _ => false end false)
        with ((out ++ lit ":null}") ++ close_all k match k with CObject :: _ => true | _ => false end false)
        by (rewrite <- !app_assoc; reflexivity).
      apply close_after; [apply ctx_close_obj_null, H|]. destruct k as [|[|] k']; auto.
Qed.

Lemma top_stream out : ctx [] After out ->
  valid_stream nan out \/ exists o, out = 10 :: o /\ valid_stream nan o.
Proof.
  intros [->|(nl & inner & Hn & -> & (l & Hl & HF & ->))].
  - left. exists []. auto.
  - destruct (vtexts opts l HF) as (js & Hj & ->).
    destruct Hn as [->| ->]; [left|right; eexists; split; [reflexivity|]]; exists js; auto.
Qed.

(** ** One code point *)
Lemma cp_ok c s out : inv s out -> allowed s c -> inv (fst (code_point opts c s)) (out ++ snd (code_point opts c s)).
Proof.
  unfold code_point. generalize 3%nat as n. intros n. revert s out.
  induction n as [|n IH]; intros s out Hi Ha; cbn [attempts].
  - cbn. rewrite app_nil_r. exact Hi.
  - pose proof (all_rules_ok opts c s out Hi Ha) as H1.
    assert (Hu : s_leaf s = LUnquoted -> s_buf s = []).
    { intros E. destruct Hi as [_ Hi]. unfold leaf_inv in Hi. rewrite E in Hi. apply Hi. }
    pose proof (all_summ opts c s Hu) as H2. unfold summ in H2.
    destruct (all_rules opts c s) as [[s1 o1] d]. cbn [fst snd] in *. destruct d; [exact H1|].
    destruct H2 as [H2|[H2 _]]; [|discriminate].
    assert (Ha1 : allowed s1 c).
    { unfold allowed. rewrite H2. repeat split; intros; try discriminate. destruct H0; discriminate. }
    specialize (IH s1 _ H1 Ha1). destruct (attempts opts n c s1) as [s2 o2]. cbn [fst snd] in *.
    rewrite app_assoc. exact IH.
Qed.

Definition unq (s : sst) : Prop := s_leaf s = LUnquoted -> s_buf s = [].
Lemma inv_unq s out : inv s out -> unq s.
Proof. intros [_ Hi] E. unfold leaf_inv in Hi. rewrite E in Hi. apply Hi. Qed.
Lemma hist_shift c s s1 s2 : s_buf s1 = [] -> hist c s1 s2 -> hist c s s2.
Proof.
  unfold hist. intros E (A & B & C). rewrite E in B. split; [exact A|]. split; [|exact C].
  intros L. destruct (B L) as (B1 & B2 & B3). split; [exact B1|]. split; [|exact B3].
  intros E2. destruct (B2 E2) as [(_ & _ & X)|X]; [discriminate|auto].
Qed.
Lemma cp_hist c s : unq s ->
  s_buf (fst (code_point opts c s)) = [] \/ hist c s (fst (code_point opts c s)).
Proof.
  unfold code_point.
  assert (G : forall n s, unq s -> s_buf (fst (attempts opts (S n) c s)) = [] \/ hist c s (fst (attempts opts (S n) c s))).
  { induction n as [|n IH]; intros s0 Hu.
    - cbn [attempts]. pose proof (all_summ opts c s0 Hu) as H2. unfold summ in H2.
      destruct (all_rules opts c s0) as [[s1 o1] d]. cbn [fst snd] in *. destruct d; cbn; [tauto|].
      destruct H2 as [H2|[H2 _]]; [auto|discriminate].
    - pose proof (all_summ opts c s0 Hu) as H2. unfold summ in H2.
      change (attempts opts (S (S n)) c s0) with (let '((s1, o1), done) := all_rules opts c s0 in
        if done then (s1, o1) else let '(s2, o2) := attempts opts (S n) c s1 in (s2, o1 ++ o2)).
      destruct (all_rules opts c s0) as [[s1 o1] d]. cbn [fst snd] in *. destruct d; [tauto|].
      destruct H2 as [H2|[H2 _]]; [|discriminate].
      specialize (IH s1 (fun _ => H2)). destruct (attempts opts (S n) c s1) as [s2 o2]. cbn [fst snd] in *.
      destruct IH as [IH|IH]; [auto|]. right. eapply hist_shift; eassumption. }
  apply G.
Qed.
Lemma cp_unq c s : unq s -> unq (fst (code_point opts c s)).
Proof. intros H E. destruct (cp_hist c s H) as [X|(_ & _ & X)]; [exact X|congruence]. Qed.

(** ** Without an opening brace there are no keys *)
Definition nokey (s : sst) : Prop := s_key s = false /\ ~ In CObject (s_stack s).
Definition kp (a : act) : Prop := forall s, nokey s -> nokey (fst (a s)).
Lemma kp_seq a b : kp a -> kp b -> kp (a ;; b).
Proof. intros Ha Hb s H. rewrite fst_seq. auto. Qed.
Lemma kp_upd f : (forall s, nokey s -> nokey (f s)) -> kp (upd f).
Proof. intros H s Hs. apply H, Hs. Qed.
Lemma kp_emit b : kp (emit b).
Proof. intros s H. exact H. Qed.
Lemma kp_cond b x y : kp x -> kp y -> kp (cond b x y).
Proof. intros Hx Hy s H. unfold cond. destruct (b s); auto. Qed.
Lemma kp_sur a : (forall s, only_sur s (fst (a s))) -> kp a.
Proof. intros H s [H1 H2]. destruct (H s) as ((E1 & _ & E3) & _). unfold nokey. rewrite E1, E3. auto. Qed.
Lemma kp_cp c : kp (emit_code_point opts c).
Proof. apply kp_sur. intros s. apply emit_only. Qed.
Lemma kp_buffer : kp (emit_buffer opts).
Proof. apply kp_sur. intros s. apply emit_list_only. Qed.
Lemma kp_conv b : kp (emit_converted opts b).
Proof. apply kp_sur. intros s. apply emit_only. Qed.
Lemma kp_state l b : kp (set_state_buf l b).
Proof. apply kp_upd. auto. Qed.
Lemma kp_clear : kp clear_buffer.
Proof. apply kp_upd. auto. Qed.
Lemma kp_append c : kp (append_code_point c).
Proof. apply kp_upd. intros s H. destruct c; auto. Qed.
Lemma kp_append_str b : kp (append_str b).
Proof. apply kp_upd. auto. Qed.
Lemma kp_start_value : kp start_value.
Proof. intros s H. exact H. Qed.
Lemma kp_raw c : kp (emit_raw c).
Proof. apply kp_emit. Qed.
Lemma kp_sep v : kp (upd (set_sep v)).
Proof. apply kp_upd. auto. Qed.
Lemma kp_key : kp (upd (set_key false)).
Proof. apply kp_upd. intros s [_ H]. split; auto. Qed.
Lemma kp_sur_set v : kp (upd (set_sur v)).
Proof. apply kp_upd. auto. Qed.
Lemma kp_end_value : kp end_value.
Proof.
  unfold end_value. repeat apply kp_seq; [apply kp_state|apply kp_sep|]. apply kp_upd.
  intros s [H1 H2]. destruct (s_stack s) as [|[|] k] eqn:E; try (split; [exact H1|rewrite E; exact H2]).
  destruct H2. left. reflexivity.
Qed.
Hint Resolve kp_seq kp_emit kp_cond kp_cp kp_buffer kp_conv kp_state kp_clear kp_append kp_append_str
  kp_start_value kp_raw kp_sep kp_key kp_sur_set kp_end_value : kp.
Lemma kp_nop : kp nop. Proof. apply kp_emit. Qed.
Lemma kp_start_string : kp start_string. Proof. unfold start_string. auto with kp. Qed.
Hint Resolve kp_nop kp_start_string : kp.
Lemma kp_end_string : kp (end_string opts). Proof. unfold end_string, string_end. auto 10 with kp. Qed.
Lemma kp_emit_atom t : kp (emit_atom t). Proof. unfold emit_atom. auto with kp. Qed.
Lemma kp_start_array : kp start_array.
Proof.
  unfold start_array, start_non_key_value. apply kp_seq; [auto 10 with kp|]. apply kp_seq; [auto with kp|].
  apply kp_seq; [|auto 10 with kp]. apply kp_upd. intros s [H1 H2]. split; [exact H1|]. cbn. intros [X|X]; [discriminate|auto].
Qed.
Lemma kp_end_container : kp end_container.
Proof.
  unfold end_container. apply kp_seq; [|auto with kp].
  intros s [H1 H2]. destruct (s_stack s) as [|[|] k] eqn:E; cbn.
  - split; [exact H1|rewrite E; exact H2].
  - split; [exact H1|]. cbn. intros X. apply H2. right. exact X.
  - split; [exact H1|]. cbn. intros X. apply H2. right. exact X.
Qed.
Lemma kp_room c : kp (append_if_room c).
Proof. intros s H. unfold append_if_room. destruct (Nat.ltb _ _); [apply kp_append, H|exact H]. Qed.
Hint Resolve kp_end_string kp_emit_atom kp_start_array kp_end_container kp_room : kp.

Definition kr (r : rule) : Prop := forall s, nokey s -> nokey (fst (fst (r s))).
Lemma kr_consumed a : kp a -> kr (consumed a).
Proof. intros H s Hs. apply H, Hs. Qed.
Lemma kr_again a : kp a -> kr (again a).
Proof. intros H s Hs. apply H, Hs. Qed.
Lemma kr_first a r : kp a -> kr r -> kr (first a r).
Proof.
  intros Ha Hr s Hs. unfold first. specialize (Ha s Hs). destruct (a s) as [s1 o1]. cbn in Ha.
  specialize (Hr s1 Ha). destruct (r s1) as [[s2 o2] d]. exact Hr.
Qed.
Ltac kr_all :=
  repeat match goal with
  | |- nokey (fst (fst ((if ?b then _ else _) _))) => destruct b eqn:?
  | |- nokey (fst (fst (if ?b then _ else _))) => destruct b eqn:?
  end;
  try (apply kr_consumed; [|assumption]; auto 12 with kp; fail);
  try (apply kr_again; [|assumption]; auto 12 with kp; fail).
Lemma kr_base_word : kr (base_word opts).
Proof.
  intros s H. unfold base_word. destruct (if s_key s then _ else _); kr_all.
Qed.
Lemma kr_digit c n b : kr (digit_then opts c n b).
Proof.
  intros s H. unfold digit_then. pose proof (kp_append c s H) as H1.
  destruct (append_code_point c s) as [s1 o1]. cbn [fst] in H1. kr_all.
Qed.
Lemma kr_end_number c : kr (end_number c).
Proof. intros s H. unfold end_number. kr_all. Qed.
Lemma kr_escape c : kr (string_escape opts c).
Proof. intros s H. unfold string_escape. kr_all. Qed.
Lemma kr_triple q two c : kr (triple_quote opts q two c).
Proof. intros s H. unfold triple_quote. destruct two, c; kr_all. Qed.
Lemma kr_plain l c : kr (string_plain opts l c).
Proof. intros s H. unfold string_plain. destruct c; kr_all. Qed.

Lemma kr_all_rules c : c <> Some 123 -> kr (all_rules opts c).
Proof.
  intros Hc s H.
  assert (B : kr (base_rules opts c)).
  { intros s0 H0. unfold base_rules. kr_all.
    - match goal with X : is c "{" && _ = true |- _ => apply andb_true_iff in X; destruct X as [X _]; apply is_true in X; destruct (Hc X) end.
    - pose proof (kp_append c s0 H0) as H1. destruct (append_code_point c s0) as [s1 o1].
      apply kr_base_word, H1. }
  assert (S : kr (string_rules opts c)).
  { intros s0 H0. unfold string_rules. destruct (s_leaf s0); kr_all;
      first [apply kr_digit|apply kr_escape|apply kr_triple|apply kr_plain]; assumption. }
  assert (M : kr (comment_rules c)).
  { intros s0 H0. unfold comment_rules. destruct (s_leaf s0); kr_all. }
  assert (D : kr (decimal_rules c)).
  { intros s0 H0. unfold decimal_rules. kr_all.
    apply kr_first; [apply kp_emit|apply kr_end_number|assumption]. }
  assert (F : kr (buffered_rules c)).
  { intros s0 H0. unfold buffered_rules. kr_all.
    apply kr_first; [apply kp_emit| |assumption]. intros s1 H1. kr_all. apply kr_end_number, H1. }
  unfold all_rules, number_rules. destruct (s_leaf s); auto; kr_all; auto.
Qed.
Lemma kp_code_point c : c <> Some 123 -> kp (code_point opts c).
Proof.
  intros Hc. unfold code_point. generalize 3%nat as n. induction n as [|n IH]; intros s H; [exact H|].
  cbn [attempts]. pose proof (kr_all_rules c Hc s H) as H1. destruct (all_rules opts c s) as [[s1 o1] d]. cbn [fst] in H1.
  destruct d; [exact H1|]. specialize (IH s1 H1). destruct (attempts opts n c s1). exact IH.
Qed.

(** ** Bytes *)
Definition good (t : bytes) : Prop := ~ escaped_control t /\ (~ In 123 t \/ ~ signed_number t).

Definition K (t ub : bytes) (s : sst) (out : bytes) : Prop :=
  inv s out /\ Forall (fun c => 128 <= c) ub /\
  (quoted_leaf (s_leaf s) -> s_buf s = [92] -> exists p, t = p ++ 92 :: ub) /\
  (s_leaf s = LBase ->
    (s_buf s = [96] -> exists p, t = p ++ 96 :: ub) /\
    (s_buf s = [96; 96] -> exists p, t = p ++ 96 :: 96 :: ub) /\
    (s_buf s = [45] -> exists p, t = p ++ 45 :: ub) /\
    (s_buf s = [43] -> exists p, t = p ++ 43 :: ub)) /\
  (~ In 123 t -> nokey s).

Lemma K_pend t ub s out c : K t ub s out -> 128 <= c -> K (t ++ [c]) (ub ++ [c]) s out.
Proof.
  intros (H1 & H2 & H3 & H4 & H5) Hc.
  assert (A : forall l, (exists p, t = p ++ l ++ ub) -> exists p, t ++ [c] = p ++ l ++ ub ++ [c]).
  { intros l (p & ->). exists p. rewrite <- !app_assoc. reflexivity. }
  split; [exact H1|]. split; [apply Forall_app; auto|]. split; [|split].
  - intros A1 A2. apply (A [92]). exact (H3 A1 A2).
  - intros A1. destruct (H4 A1) as (B1 & B2 & B3 & B4).
    repeat split; intros A2; [apply (A [96])|apply (A [96; 96])|apply (A [45])|apply (A [43])]; auto.
  - intros X. apply H5. intros Y. apply X. apply in_or_app. auto.
Qed.

Lemma K_high t t' ub ub' s out x : K t ub s out -> 128 <= x -> Forall (fun c => 128 <= c) ub' ->
  (In 123 t -> In 123 t') ->
  K t' ub' (fst (code_point opts (Some x) s)) (out ++ snd (code_point opts (Some x) s)).
Proof.
  intros (H1 & H2 & H3 & H4 & H5) Hx Hu Ht.
  assert (Ha : allowed s (Some x)).
  { split; [|split].
    - intros _ _ y E. injection E as <-. left. lia.
    - discriminate.
    - intros _ _ _ y E. injection E as <-. unfold digit. lia. }
  pose proof (cp_ok _ s out H1 Ha) as I1. pose proof (cp_hist (Some x) s (inv_unq _ _ H1)) as I2.
  assert (I3 : nokey s -> nokey (fst (code_point opts (Some x) s))).
  { apply kp_code_point. intros X. injection X as ->. lia. }
  split; [exact I1|]. split; [exact Hu|].
  assert (NX : forall y, y < 128 -> Some x = Some y -> False) by (intros y Hy X; injection X as ->; lia).
  split; [|split].
  - intros A1 A2. destruct I2 as [I2|[I2 _]]; [rewrite I2 in A2; discriminate|]. destruct (NX 92 ltac:(lia) (I2 A1 A2)).
  - intros A1. destruct I2 as [I2|(_ & I2 & _)]; [rewrite I2; repeat split; discriminate|].
    destruct (I2 A1) as (B1 & B2 & B3 & B4). repeat split; intros A2.
    + destruct (NX 96 ltac:(lia) (B1 A2)).
    + destruct (B2 A2) as [(X & _)|X]; [destruct (NX 96 ltac:(lia) X)|discriminate].
    + destruct (NX 45 ltac:(lia) (B3 A2)).
    + destruct (NX 43 ltac:(lia) (B4 A2)).
  - intros X. apply I3, H5. intros Y. apply X, Ht, Y.
Qed.

Lemma K_low t s out x : K t [] s out -> good (t ++ [x]) ->
  K (t ++ [x]) [] (fst (code_point opts (Some x) s)) (out ++ snd (code_point opts (Some x) s)).
Proof.
  intros (H1 & H2 & H3 & H4 & H5) [G1 G2].
  assert (Ha : allowed s (Some x)).
  { split; [|split].
    - intros A1 A2 y E. injection E as <-. destruct (H3 A1 A2) as (p & Ep).
      destruct (N.lt_ge_cases x 32) as [L|L]; [|auto]. destruct (N.eq_dec x 10); [auto|]. destruct (N.eq_dec x 13); [auto|].
      exfalso. apply G1. exists p, x, []. rewrite Ep, <- app_assoc. auto.
    - discriminate.
    - intros A1 A2 A3 y E. injection E as <-. intros A4. destruct (H4 A1) as (_ & _ & B3 & B4).
      destruct G2 as [G2|G2].
      + assert (NK : nokey s) by (apply H5; intros X; apply G2, in_or_app; auto). destruct NK as [NK _]. congruence.
      + apply G2. destruct A2 as [A2|A2].
        * destruct (B3 A2) as (p & Ep). exists p, 45, x, []. rewrite Ep, <- app_assoc. auto.
        * destruct (B4 A2) as (p & Ep). exists p, 43, x, []. rewrite Ep, <- app_assoc. auto. }
  pose proof (cp_ok _ s out H1 Ha) as I1. pose proof (cp_hist (Some x) s (inv_unq _ _ H1)) as I2.
  split; [exact I1|]. split; [constructor|]. split; [|split].
  - intros A1 A2. destruct I2 as [I2|[I2 _]]; [rewrite I2 in A2; discriminate|].
    specialize (I2 A1 A2). injection I2 as ->. exists t. reflexivity.
  - intros A1. destruct I2 as [I2|(_ & I2 & _)]; [rewrite I2; repeat split; discriminate|].
    destruct (I2 A1) as (B1 & B2 & B3 & B4). repeat split; intros A2.
    + specialize (B1 A2). injection B1 as ->. exists t. reflexivity.
    + destruct (B2 A2) as [(X & Y & Z)|X]; [|discriminate]. injection X as ->.
      destruct (H4 Y) as (C & _). destruct (C Z) as (p & ->). exists p. rewrite <- app_assoc. reflexivity.
    + specialize (B3 A2). injection B3 as ->. exists t. reflexivity.
    + specialize (B4 A2). injection B4 as ->. exists t. reflexivity.
  - intros X. apply kp_code_point.
    + intros E. injection E as ->. apply X, in_or_app. right. left. reflexivity.
    + apply H5. intros Y. apply X, in_or_app. auto.
Qed.

Lemma decode_high l : Forall (fun c => 128 <= c) l -> 128 <= decode_buffer l.
Proof.
  intros H. unfold decode_buffer, u8_trail, kReplacement.
  destruct l as [|a [|b [|c [|d [|e l]]]]]; try lia;
    repeat match goal with X : Forall _ (_ :: _) |- _ => apply Forall_cons_iff in X; destruct X end.
  - destruct (a <? 0x80) eqn:E; lia.
  - destruct (_ && _) eqn:E; [|lia].
    repeat (apply andb_true_iff in E; destruct E as [E ?]). lia.
  - destruct (_ && _) eqn:E; [|lia].
    repeat (apply andb_true_iff in E; let F := fresh "F" in destruct E as [E F]).
    destruct (a =? 0xE0) eqn:Ea; lia.
  - destruct (_ && _) eqn:E; [|lia].
    repeat (apply andb_true_iff in E; let F := fresh "F" in destruct E as [E F]).
    destruct (a =? 0xF0) eqn:Ea; lia.
Qed.

Lemma K_byte0 t s out c : K t [] s out -> good (t ++ [c]) ->
  let '(ub, l) := utf8_step [] c in
  K (t ++ [c]) ub (fst (code_points opts l s)) (out ++ snd (code_points opts l s)).
Proof.
  intros HK HG. unfold utf8_step. cbn [app hd List.length].
  destruct (Nat.ltb 1 (seq_length c)) eqn:E.
  - cbn. rewrite app_nil_r. apply (K_pend _ [] _ _ c); [exact HK|].
    unfold seq_length in E. destruct (c <? 0xC2) eqn:E1; [discriminate|lia].
  - cbn [code_points decode_buffer]. unfold andthen, nop, emit.
    destruct (c <? 0x80) eqn:Ec.
    + pose proof (K_low _ _ _ c HK HG) as X. destruct (code_point opts (Some c) s). cbn [fst snd] in *.
      rewrite app_nil_r. exact X.
    + pose proof (K_high t (t ++ [c]) [] [] s out kReplacement HK ltac:(unfold kReplacement; lia) ltac:(constructor)
        ltac:(intros; apply in_or_app; auto)) as X.
      destruct (code_point opts (Some kReplacement) s). cbn [fst snd] in *. rewrite app_nil_r. exact X.
Qed.
Lemma K_byte t ub s out c : K t ub s out -> good (t ++ [c]) ->
  K (t ++ [c]) (fst (fst (input_byte opts (ub, s) c))) (snd (fst (input_byte opts (ub, s) c)))
    (out ++ snd (input_byte opts (ub, s) c)).
Proof.
  intros HK HG. unfold input_byte. cbn [fst snd].
  destruct ub as [|b ub].
  - pose proof (K_byte0 t s out c HK HG) as X. destruct (utf8_step [] c) as [ub' l].
    destruct (code_points opts l s). exact X.
  - destruct (u8_trail c) eqn:Et.
    + unfold utf8_step. rewrite Et.
      assert (Hc : 128 <= c) by (unfold u8_trail in Et; lia).
      destruct (Nat.ltb _ _).
      * cbn [code_points nop emit fst snd]. rewrite app_nil_r. apply K_pend; assumption.
      * cbn [code_points app]. unfold andthen, nop, emit.
        assert (HF : Forall (fun c => 128 <= c) ((b :: ub) ++ [c])) by (apply Forall_app; split; [apply HK|auto]).
        pose proof (K_high t (t ++ [c]) (b :: ub) [] s out _ HK (decode_high _ HF) ltac:(constructor)
          ltac:(intros; apply in_or_app; auto)) as X. cbn [app] in X.
        destruct (code_point opts _ s). cbn [fst snd] in *. rewrite app_nil_r. exact X.
    + pose proof (K_high t t (b :: ub) [] s out kReplacement HK ltac:(unfold kReplacement; lia) ltac:(constructor) ltac:(auto)) as X.
      assert (E : utf8_step (b :: ub) c = (fst (utf8_step [] c), kReplacement :: snd (utf8_step [] c))).
      { unfold utf8_step. rewrite Et. destruct (Nat.ltb _ _); reflexivity. }
      rewrite E. cbn [code_points]. unfold andthen.
      destruct (code_point opts (Some kReplacement) s) as [s1 o1]. cbn [fst snd] in X.
      pose proof (K_byte0 t s1 _ c X HG) as Y. destruct (utf8_step [] c) as [ub' l]. cbn [fst snd].
      destruct (code_points opts l s1) as [s2 o2]. cbn [fst snd] in *. rewrite app_assoc. exact Y.
Qed.

Lemma good_prefix t c : good (t ++ [c]) -> good t.
Proof.
  intros [A B]. split.
  - intros (p & x & q & -> & H). apply A. exists p, x, (q ++ [c]). rewrite <- app_assoc. auto.
  - destruct B as [B|B]; [left|right].
    + intros X. apply B, in_or_app. auto.
    + intros (p & x & y & q & -> & H). apply B. exists p, x, y, (q ++ [c]). rewrite <- app_assoc. auto.
Qed.
Lemma init_inv : inv salvage_init [].
Proof.
  split; [exact I|]. left. split; [reflexivity|]. split; [discriminate|]. cbn. auto.
Qed.
Lemma K_loop t : good t ->
  let r := loop (input_byte opts) ([], salvage_init) t in K t (fst (fst r)) (snd (fst r)) (snd r).
Proof.
  induction t as [|c t IH] using rev_ind; intros HG.
  - cbn. split; [exact init_inv|]. split; [constructor|]. repeat split; cbn; try discriminate; try tauto.
  - specialize (IH (good_prefix _ _ HG)). cbn zeta in *. rewrite loop_app.
    destruct (loop (input_byte opts) ([], salvage_init) t) as [[ub s] out]. cbn [fst snd] in *.
    cbn [loop]. pose proof (K_byte t ub s out c IH HG) as X.
    destruct (input_byte opts (ub, s) c) as [[ub' s'] o']. cbn [fst snd] in *. rewrite app_nil_r. exact X.
Qed.

(** ** The end of the input *)
Definition ended (s : sst) : Prop :=
  (s_leaf s = LBase /\ s_buf s = []) \/ s_leaf s = LCommentLine \/ s_leaf s = LCommentMulti.
Lemma none_step s out : inv s out -> (s_leaf s = LBase -> s_buf s <> lit "``") ->
  let r := all_rules opts None s in
  if snd r then ended (fst (fst r))
  else s_buf (fst (fst r)) = [] /\ (s_leaf (fst (fst r)) = LBase \/ quoted_leaf (s_leaf (fst (fst r)))).
Proof.
  intros [_ Hi] Hb. unfold leaf_inv in Hi. unfold all_rules.
  assert (EV : forall s, ended (fst (end_value s))) by (intros s0; left; destruct (end_value_buf s0); auto).
  assert (ES : forall s, ended (fst (end_string opts s))) by (intros s0; left; destruct (end_string_buf opts s0); auto).
  assert (QS : quoted_leaf (s_leaf s) -> let r := string_rules opts None s in
    if snd r then ended (fst (fst r))
    else s_buf (fst (fst r)) = [] /\ (s_leaf (fst (fst r)) = LBase \/ quoted_leaf (s_leaf (fst (fst r))))).
  { intros Hq. cbn zeta. unfold string_rules, buf_is, buf_starts.
    assert (CV : forall b, s_leaf (fst ((emit_converted opts b ;; clear_buffer) s)) = s_leaf s).
    { intros b. rewrite fst_seq. cbn. destruct (emit_only opts (Some (convert_buffer s b mod 2 ^ 32)) s) as (_ & _ & E). exact E. }
    assert (RA : forall a, s_buf (fst (a s)) = [] -> s_leaf (fst (a s)) = s_leaf s ->
       if snd (again a s) then ended (fst (fst (again a s))) else
       s_buf (fst (fst (again a s))) = [] /\ (s_leaf (fst (fst (again a s))) = LBase \/ quoted_leaf (s_leaf (fst (fst (again a s)))))).
    { intros a A B. cbn [again fst snd]. rewrite B. auto. }
    cbn [is is_hex is_octal within orb andb]. rewrite !andb_false_r.
    destruct (s_leaf s) eqn:El; destruct Hq;
    (destruct (bytes_eqb (s_buf s) []); [apply ES|]);
    (destruct (bytes_eqb (s_buf s) (lit "\")); [apply ES|]);
    (destruct (bytes_eqb (s_buf s) [92; 13]); [apply RA; [reflexivity|exact El]|]);
    do 4 (match goal with |- context[if bytes_eqb ?a ?b then _ else _] => destruct (bytes_eqb a b) end; [apply ES|]);
    do 5 (match goal with |- context[if starts_with ?a ?b then _ else _] => destruct (starts_with a b) end;
      [apply RA; [apply clear_buf|apply CV]|]); cbn; left; split; reflexivity. }
  assert (NR : s_leaf s = LNumBuffered \/ s_leaf s = LNumDecimal -> let r := number_rules None s in
    if snd r then ended (fst (fst r))
    else s_buf (fst (fst r)) = [] /\ (s_leaf (fst (fst r)) = LBase \/ quoted_leaf (s_leaf (fst (fst r))))).
  { intros Hl. cbn zeta. unfold number_rules. cbn [is orb].
    assert (FI : forall b, let r := first (emit b) (end_number None) s in
      if snd r then ended (fst (fst r))
      else s_buf (fst (fst r)) = [] /\ (s_leaf (fst (fst r)) = LBase \/ quoted_leaf (s_leaf (fst (fst r))))).
    { intros b. cbn zeta. unfold first, emit, end_number. cbn [is orb again]. destruct (end_value_buf s) as [X Y].
      destruct (end_value s) as [s2 o2]. cbn in *. auto. }
    destruct Hl as [El|El]; rewrite El.
    - unfold buffered_rules. cbn [is is_hex is_octal is_binary within orb andb]. rewrite !andb_false_r. apply FI.
    - unfold decimal_rules. cbn [is is_hex is_octal is_binary within orb andb]. rewrite !andb_false_r. apply FI. }
  destruct (s_leaf s) eqn:El.
  - unfold base_rules, buf_is. destruct (bytes_eqb (s_buf s) []) eqn:E0.
    { cbn. left. apply bytes_eqb_eq in E0. auto. }
    cbn [is within]. rewrite !andb_false_r.
    destruct (bytes_eqb (s_buf s) (lit """")); [cbn; split; auto; right; exact I|].
    destruct (bytes_eqb (s_buf s) (lit "'")); [cbn; split; auto; right; exact I|].
    destruct (bytes_eqb (s_buf s) (lit "`")); [cbn; split; auto; right; exact I|].
    destruct (bytes_eqb (s_buf s) (lit """""")).
    { cbn [again snd fst]. rewrite fst_seq. destruct (end_value_buf (fst (emit [34] s))); auto. }
    destruct (bytes_eqb (s_buf s) (lit "''")).
    { cbn [again snd fst]. rewrite fst_seq. destruct (end_value_buf (fst (emit [34] s))); auto. }
    destruct (bytes_eqb (s_buf s) (lit "``")) eqn:B; [apply bytes_eqb_eq in B; destruct (Hb eq_refl B)|].
    cbn [unquoted_next negb andb again fst snd]. rewrite !fst_seq.
    destruct (end_string_buf opts (fst (emit_buffer opts (fst (start_string s))))); auto.
  - apply QS. exact I.
  - apply QS. exact I.
  - apply QS. exact I.
  - apply QS. exact I.
  - apply QS. exact I.
  - unfold string_rules. rewrite El. cbn [unquoted_next negb again fst snd]. destruct (end_string_buf opts s); auto.
  - unfold comment_rules. rewrite El. cbn. right. left. exact El.
  - unfold comment_rules. rewrite El. unfold buf_is. destruct (bytes_eqb (s_buf s) []); cbn; right; right; exact El.
  - apply NR. auto.
  - apply NR. auto.
Qed.

Lemma ended_rest s out : inv s out -> ended s -> rest s out.
Proof.
  intros [_ H] E. unfold leaf_inv in H. destruct E as [[E1 E2]|[E|E]].
  - rewrite E1 in H. destruct H as [[_ H]|[[H _]|[[H _] _]]]; [exact H| |congruence].
    rewrite E2 in H. unfold quote_buf in H. destruct H as [H|[H|[H|H]]]; discriminate.
  - rewrite E in H. exact H.
  - rewrite E in H. exact H.
Qed.

Lemma end_rest s out : inv s out -> (s_leaf s = LBase -> s_buf s <> lit "``") ->
  rest (fst (code_point opts None s)) (out ++ snd (code_point opts None s)).
Proof.
  intros Hi Hb. assert (Ha : allowed s None).
  { split; [|split]; [discriminate|intros A B; destruct (Hb A B)|discriminate]. }
  apply ended_rest; [apply cp_ok; assumption|].
  unfold code_point. cbn [attempts].
  pose proof (none_step s out Hi Hb) as X1. pose proof (all_rules_ok opts None s out Hi Ha) as I1.
  destruct (all_rules opts None s) as [[s1 o1] d1]. cbn [fst snd] in *. destruct d1; [exact X1|].
  destruct X1 as [B1 L1].
  assert (Ha1 : allowed s1 None).
  { split; [|split]; [discriminate|rewrite B1; discriminate|discriminate]. }
  assert (Hb1 : s_leaf s1 = LBase -> s_buf s1 <> lit "``") by (rewrite B1; discriminate).
  assert (D : snd (all_rules opts None s1) = true).
  { unfold all_rules. destruct L1 as [L1|L1].
    - rewrite L1. unfold base_rules, buf_is. rewrite B1. reflexivity.
    - destruct (s_leaf s1) eqn:El; destruct L1; unfold string_rules, buf_is; rewrite El, B1; reflexivity. }
  pose proof (none_step s1 _ I1 Hb1) as X2.
  destruct (all_rules opts None s1) as [[s2 o2] d2]. cbn [fst snd] in *. subst d2. exact X2.
Qed.

(** ** The whole input *)
Definition salvage (t : bytes) : bytes :=
  let '(st, o1) := loop (input_byte opts) ([], salvage_init) t in o1 ++ snd (input_end opts (snd st)).

Lemma salvage_valid t : ~ escaped_control t -> ~ final_backticks t ->
  ~ In 123 t \/ ~ signed_number t ->
  valid_stream nan (salvage t) \/ exists o, salvage t = 10 :: o /\ valid_stream nan o.
Proof.
  intros H1 H2 H3. apply top_stream. unfold salvage.
  pose proof (K_loop t (conj H1 H3)) as HK. cbn zeta in HK.
  destruct (loop (input_byte opts) ([], salvage_init) t) as [[ub s] out]. cbn [fst snd] in *.
  unfold input_end. destruct HK as (Hi & Hu & _ & HL & _).
  pose proof (end_rest s out Hi) as X.
  destruct (code_point opts None s) as [s1 o1]. cbn [fst snd] in *. rewrite app_assoc. apply close_rest, X.
  intros E1 E2. destruct (HL E1) as (_ & Y & _). destruct (Y E2) as (p & ->).
  apply H2. exists p, ub. auto.
Qed.

(** ** ASCII *)
Section Ascii.
Hypothesis ensure : o_ascii opts = true.
Notation ascii_text := (Forall (fun c : N => c < 128)).
Definition ap (a : act) : Prop := forall s, sur_ok s -> sur_ok (fst (a s)) /\ ascii_text (snd (a s)).
Lemma snd_seq a b s : snd ((a ;; b) s) = snd (a s) ++ snd (b (fst (a s))).
Proof. unfold andthen. destruct (a s) as [s1 o1]. cbn [fst snd]. destruct (b s1). reflexivity. Qed.
Lemma ap_seq a b : ap a -> ap b -> ap (a ;; b).
Proof.
  intros Ha Hb s Hs. rewrite snd_seq, fst_seq. destruct (Ha s Hs) as [A1 A2]. destruct (Hb _ A1) as [B1 B2].
  split; [exact B1|]. apply Forall_app. auto.
Qed.
Lemma ap_upd f : (forall s, sur_ok s -> sur_ok (f s)) -> ap (upd f).
Proof. intros H s Hs. split; [apply H, Hs|constructor]. Qed.
Definition asciib (l : bytes) : bool := forallb (fun c => c <? 128) l.
Lemma asciib_ok l : asciib l = true -> ascii_text l.
Proof.
  intros H. apply Forall_forall. intros x Hx. unfold asciib in H. rewrite forallb_forall in H.
  specialize (H x Hx). lia.
Qed.
Lemma ap_text b : ascii_text b -> ap (emit b).
Proof. intros H s Hs. split; assumption. Qed.
Lemma ap_emit b : asciib b = true -> ap (emit b).
Proof. intros H. apply ap_text, asciib_ok, H. Qed.
Lemma ap_cond b x y : ap x -> ap y -> ap (cond b x y).
Proof. intros Hx Hy s. unfold cond. destruct (b s); auto. Qed.
Lemma hex_char_ascii d : d < 16 -> hex_char d < 128.
Proof. unfold hex_char. destruct (d <? 10); lia. Qed.
Lemma u_escape_ascii c : c < 0x10000 -> ascii_text (u_escape c).
Proof.
  intros H. unfold u_escape. repeat (apply Forall_cons || apply Forall_nil); try lia.
  all: apply hex_char_ascii; try (apply N.mod_lt; discriminate).
  apply N.div_lt_upper_bound; [discriminate|]. lia.
Qed.
Lemma scalar_ascii x : encodable x = true -> ascii_text (scalar_text opts x).
Proof.
  intros He. unfold scalar_text. rewrite ensure, andb_true_r. destruct (0x80 <=? x) eqn:E.
  - destruct (x <? 0x10000) eqn:E2; [apply u_escape_ascii; lia|]. unfold encodable in He.
    pose proof (sur_lead_small x ltac:(lia)). pose proof (sur_trail_small x).
    apply Forall_app. split; apply u_escape_ascii; lia.
  - unfold utf8. destruct (x <? 0x80) eqn:E2; [|lia]. repeat constructor. lia.
Qed.
Lemma repl_ascii : ascii_text (scalar_text opts kReplacement).
Proof. apply scalar_ascii. reflexivity. Qed.
Lemma emit1_ascii x s : sur_ok s -> ascii_text (snd (emit_code_point1 opts x s)).
Proof.
  intros Hs. unfold emit_code_point1.
  do 7 (match goal with |- context[if ?b then _ else _] => destruct b end; [apply asciib_ok; reflexivity|]).
  destruct (x <? 0x20) eqn:E; [apply u_escape_ascii; lia|].
  destruct (u16_lead x); [constructor|]. destruct (u16_trail x) eqn:Et.
  - unfold sur_ok in Hs. destruct (s_sur s) as [h|]; [|apply repl_ascii]. cbn [snd]. rewrite ensure.
    unfold u16_lead, u16_trail in *.
    assert (R : 0x10000 <= supplementary h x < 0x110000) by (unfold supplementary; lia).
    pose proof (sur_lead_small _ R). pose proof (sur_trail_small (supplementary h x)).
    apply Forall_app. split; apply u_escape_ascii; lia.
  - destruct (encodable x) eqn:Ee; cbn [negb]; [apply scalar_ascii, Ee|apply repl_ascii].
Qed.
Lemma ap_cp c : ap (emit_code_point opts c).
Proof.
  intros s Hs. split; [apply emit_ok, Hs|]. destruct c as [x|]; [|constructor].
  unfold emit_code_point. rewrite snd_seq. unfold cond. apply Forall_app.
  destruct (match s_sur s with Some _ => _ | None => _ end).
  - rewrite snd_seq, fst_seq. cbn. split; [apply repl_ascii|]. apply emit1_ascii. exact I.
  - cbn. split; [constructor|]. apply emit1_ascii, Hs.
Qed.
Lemma ap_conv b : ap (emit_converted opts b).
Proof. intros s. apply ap_cp. Qed.
Lemma ap_list l : ap (emit_list opts l).
Proof. induction l as [|x l IH]; [intros s Hs; split; [exact Hs|constructor]|]. cbn [emit_list]. apply ap_seq; [apply ap_cp|exact IH]. Qed.
Lemma ap_buffer : ap (emit_buffer opts).
Proof. intros s. apply ap_list. Qed.
Lemma ap_state l b : ap (set_state_buf l b).
Proof. apply ap_upd. auto. Qed.
Lemma ap_clear : ap clear_buffer.
Proof. apply ap_upd. auto. Qed.
Lemma ap_append c : ap (append_code_point c).
Proof. apply ap_upd. intros s H. destruct c; auto. Qed.
Lemma ap_append_str b : ap (append_str b).
Proof. apply ap_upd. auto. Qed.
Lemma ap_stack f : ap (upd (fun s => set_stack (f s) s)).
Proof. apply ap_upd. auto. Qed.
Lemma ap_set_stack k : ap (upd (set_stack k)).
Proof. apply ap_upd. auto. Qed.
Lemma ap_start_value : ap start_value.
Proof.
  intros s H. split; [exact H|]. cbn. destruct (s_sep s); [|constructor]. destruct (s_stack s) as [|[|] k]; [| |destruct (s_key s)];
    apply asciib_ok; reflexivity.
Qed.
Lemma ap_sep v : ap (upd (set_sep v)).
Proof. apply ap_upd. auto. Qed.
Lemma ap_key v : ap (upd (set_key v)).
Proof. apply ap_upd. auto. Qed.
Lemma ap_sur : ap (upd (set_sur None)).
Proof. apply ap_upd. intros s _. exact I. Qed.
Lemma ap_repl : ap (emit (scalar_text opts kReplacement)).
Proof. apply ap_text, repl_ascii. Qed.
Lemma ap_end_value : ap end_value.
Proof.
  unfold end_value. repeat apply ap_seq; [apply ap_state|apply ap_sep|]. apply ap_upd.
  intros s H. destruct (s_stack s) as [|[|] k]; exact H.
Qed.
Lemma ap_raw c : (forall x, c = Some x -> x < 128) -> ap (emit_raw c).
Proof.
  intros H. apply ap_text. destruct c as [x|]; [|constructor]. specialize (H x eq_refl). unfold utf8.
  destruct (x <? 0x80) eqn:E; [|lia]. repeat constructor. exact H.
Qed.
Hint Extern 1 (asciib _ = true) => reflexivity : ap.
Hint Resolve ap_seq ap_emit ap_cond ap_cp ap_buffer ap_conv ap_state ap_clear ap_append ap_append_str ap_stack ap_set_stack
  ap_start_value ap_sep ap_key ap_sur ap_repl ap_end_value : ap.
Lemma ap_nop : ap nop. Proof. auto with ap. Qed.
Lemma ap_start_string : ap start_string. Proof. unfold start_string. auto with ap. Qed.
Hint Resolve ap_nop ap_start_string : ap.
Lemma ap_end_string : ap (end_string opts). Proof. unfold end_string, string_end. auto 10 with ap. Qed.
Lemma ap_start_array : ap start_array.
Proof. unfold start_array, start_non_key_value. auto 12 with ap. Qed.
Lemma ap_start_object : ap start_object.
Proof. unfold start_object, start_non_key_value. auto 12 with ap. Qed.
Lemma ap_end_container : ap end_container.
Proof.
  unfold end_container. apply ap_seq; [|auto with ap].
  intros s H. destruct (s_stack s) as [|[|] k]; (split; [exact H|]); [constructor|apply asciib_ok; reflexivity|].
  destruct (s_key s); apply asciib_ok; reflexivity.
Qed.
Lemma ap_room c : ap (append_if_room c).
Proof. intros s H. unfold append_if_room. destruct (Nat.ltb _ _); [apply ap_append, H|split; [exact H|constructor]]. Qed.
Lemma ap_atom t : (exists a, In (a, t) (atoms opts)) -> ap (emit_atom t).
Proof.
  intros (a & Ha). unfold emit_atom. apply ap_seq; [auto with ap|]. apply ap_seq; [|auto with ap]. apply ap_emit.
  unfold atoms in Ha. destruct (o_nan opts); cbn [app] in Ha;
    repeat (destruct Ha as [Ha|Ha]; [injection Ha as <- <-; reflexivity|]); destruct Ha.
Qed.
Hint Resolve ap_end_string ap_start_array ap_start_object ap_end_container ap_room : ap.

Definition ar (r : rule) (P : sst -> Prop) : Prop :=
  forall s, sur_ok s -> P s -> sur_ok (fst (fst (r s))) /\ ascii_text (snd (fst (r s))).
Definition any (s : sst) : Prop := True.
Lemma ar_consumed a P : ap a -> ar (consumed a) P.
Proof. intros H s Hs _. apply H, Hs. Qed.
Lemma ar_again a P : ap a -> ar (again a) P.
Proof. intros H s Hs _. apply H, Hs. Qed.
Lemma ar_first a r : ap a -> ar r any -> ar (first a r) any.
Proof.
  intros Ha Hr s Hs _. unfold first. specialize (Ha s Hs). destruct (a s) as [s1 o1]. cbn in Ha. destruct Ha as [A1 A2].
  specialize (Hr s1 A1 I). destruct (r s1) as [[s2 o2] d]. cbn in *. split; [apply Hr|]. apply Forall_app. split; [exact A2|apply Hr].
Qed.
Ltac ar_all :=
  repeat match goal with
  | |- sur_ok (fst (fst ((if ?b then _ else _) _))) /\ _ => destruct b eqn:?
  | |- sur_ok (fst (fst (if ?b then _ else _))) /\ _ => destruct b eqn:?
  end;
  try (apply (ar_consumed _ any); [|assumption|exact I]; auto 12 with ap; fail);
  try (apply (ar_again _ any); [|assumption|exact I]; auto 12 with ap; fail).
Lemma ar_base_word : ar (base_word opts) any.
Proof.
  intros s H _. unfold base_word. destruct (if s_key s then _ else _) eqn:E.
  - apply (ar_consumed _ any); [|exact H|exact I]. apply ap_seq; [|auto with ap]. apply ap_atom.
    destruct (s_key s); [discriminate|]. unfold full_atom in E. destruct (find _ (atoms opts)) as [[a t]|] eqn:F; [|discriminate].
    injection E as <-. apply find_some in F. exists a. apply F.
  - ar_all.
Qed.
Lemma ar_digit c n b : ar (digit_then opts c n b) any.
Proof.
  intros s H _. unfold digit_then. pose proof (ap_append c s H) as [H1 H2].
  destruct (append_code_point c s) as [s1 o1]. cbn [fst] in H1. ar_all.
Qed.
Lemma ar_end_number c : ar (end_number c) any.
Proof. intros s H _. unfold end_number. ar_all. Qed.
Lemma is_small c a : is c a = true -> N_of_ascii a < 128 -> forall x, c = Some x -> x < 128.
Proof. intros H Ha x E. apply is_true in H. congruence. Qed.
Lemma within_small c lo hi : within c lo hi = true -> hi < 128 -> forall x, c = Some x -> x < 128.
Proof. intros H Hh x E. apply within_true in H. destruct H as (y & E2 & H). assert (x = y) by congruence. lia. Qed.
Lemma ar_escape c : (forall x, c = Some x -> x < 128) -> ar (string_escape opts c) any.
Proof. intros Hc s H _. pose proof (ap_raw c Hc). unfold string_escape. ar_all. Qed.
Lemma ar_triple q two c : ar (triple_quote opts q two c) any.
Proof. intros s H _. unfold triple_quote. destruct two, c; ar_all. Qed.
Lemma ar_plain l c : ar (string_plain opts l c) any.
Proof. intros s H _. unfold string_plain. destruct c; ar_all. Qed.

Definition escaping (s : sst) : Prop := quoted_leaf (s_leaf s) /\ s_buf s = [92].
Lemma ar_all_rules c : ar (all_rules opts c) (fun s => escaping s -> forall x, c = Some x -> x < 128).
Proof.
  intros s H HE.
  assert (B : ar (base_rules opts c) any).
  { intros s0 H0 _. unfold base_rules.
    assert (R : within c 49 57 = true -> ap (emit_raw c)).
    { intros X. apply ap_raw. apply (within_small _ _ _ X). reflexivity. }
    ar_all;
      try (match goal with X : _ && within c 49 57 = true |- _ => apply andb_true_iff in X; destruct X as [_ X] end;
           apply (ar_consumed _ any); [|assumption|exact I]; auto 12 with ap; fail).
    pose proof (ap_append c s0 H0) as [H1 _]. destruct (append_code_point c s0) as [s1 o1]. apply ar_base_word; [exact H1|exact I]. }
  assert (S : ar (string_rules opts c) (fun s => (quoted_leaf (s_leaf s) \/ s_leaf s = LUnquoted) /\ (escaping s -> forall x, c = Some x -> x < 128))).
  { intros s0 H0 [Q HE0]. unfold string_rules.
    destruct (s_leaf s0) eqn:El; try (destruct Q as [[]|Q]; discriminate); ar_all; try (apply ar_digit; [assumption|exact I]);
      try (apply ar_triple; [assumption|exact I]); try (apply ar_plain; [assumption|exact I]).
    all: try (apply ar_escape; [|assumption|exact I]; apply HE0; split; [rewrite El; exact I|]; apply bytes_eqb_eq; assumption). }
  assert (M : ar (comment_rules c) any).
  { intros s0 H0 _. unfold comment_rules. destruct (s_leaf s0); ar_all. }
  assert (D : ar (decimal_rules c) any).
  { intros s0 H0 _. unfold decimal_rules.
    assert (R : within c 48 57 = true -> ap (emit_raw c)).
    { intros X. apply ap_raw. apply (within_small _ _ _ X). reflexivity. }
    assert (R2 : is c "+" || is c "-" = true -> ap (emit_raw c)).
    { intros X. apply ap_raw. apply orb_true_iff in X. destruct X as [X|X]; apply (is_small _ _ X); reflexivity. }
    ar_all.
    - apply (ar_consumed _ any); [|assumption|exact I]. match goal with X : _ && _ = true |- _ => apply andb_true_iff in X; destruct X as [_ X] end.
      auto 12 with ap.
    - apply ar_first; [|apply ar_end_number|assumption|exact I]. apply ap_emit. match goal with |- asciib (if ?b then _ else _) = _ => destruct b end; reflexivity. }
  assert (DI : forall n, ascii_text (dec_of_N n)).
  { intros n. pose proof (dec_of_N_int n) as X. unfold int_part in X. destruct X as [->|(d & r & -> & Hd & Hr)].
    - apply asciib_ok. reflexivity.
    - constructor; [lia|]. eapply Forall_impl; [|exact Hr]. unfold digit. intros. lia. }
  assert (F : ar (buffered_rules c) any).
  { intros s0 H0 _. unfold buffered_rules.
    assert (R : within c 49 57 = true -> ap (emit_raw c)).
    { intros X. apply ap_raw. apply (within_small _ _ _ X). reflexivity. }
    ar_all.
    - apply (ar_consumed _ any); [|assumption|exact I]. match goal with X : _ && _ = true |- _ => apply andb_true_iff in X; destruct X as [_ X] end.
      auto 12 with ap.
    - apply ar_first; [| |assumption|exact I].
      + apply ap_text. repeat match goal with |- Forall _ (if ?b then _ else _) => destruct b end; try apply DI; apply asciib_ok; reflexivity.
      + intros s1 H1 _. ar_all. apply ar_end_number; [exact H1|exact I]. }
  unfold all_rules, number_rules. destruct (s_leaf s) eqn:El; try (apply B; [exact H|exact I]); try (apply S; [exact H|split; [rewrite El; cbn; auto|exact HE]]);
    try (apply M; [exact H|exact I]); ar_all; [apply F|apply D]; auto; exact I.
Qed.
Lemma ap_code_point c s : sur_ok s -> unq s -> (escaping s -> forall x, c = Some x -> x < 128) ->
  sur_ok (fst (code_point opts c s)) /\ ascii_text (snd (code_point opts c s)).
Proof.
  unfold code_point. generalize 3%nat as n. intros n. revert s. induction n as [|n IH]; intros s H Hu HE; [split; [exact H|constructor]|].
  cbn [attempts]. pose proof (ar_all_rules c s H HE) as H1. pose proof (all_summ opts c s Hu) as H2. unfold summ in H2.
  destruct (all_rules opts c s) as [[s1 o1] d]. cbn [fst snd] in *.
  destruct d; [exact H1|]. destruct H2 as [H2|[H2 _]]; [|discriminate].
  assert (A1 : unq s1) by (intros _; exact H2).
  assert (A2 : escaping s1 -> forall x, c = Some x -> x < 128) by (intros [_ X]; congruence).
  destruct H1 as [H1 H1']. specialize (IH s1 H1 A1 A2). destruct (attempts opts n c s1). cbn [fst snd] in *.
  split; [apply IH|]. apply Forall_app. split; [exact H1'|apply IH].
Qed.

Definition A (t ub : bytes) (s : sst) (out : bytes) : Prop :=
  sur_ok s /\ unq s /\ Forall (fun c => 128 <= c) ub /\ (escaping s -> exists p, t = p ++ 92 :: ub) /\ ascii_text out.
Lemma A_pend t ub s out c : A t ub s out -> 128 <= c -> A (t ++ [c]) (ub ++ [c]) s out.
Proof.
  intros (H1 & H2 & H3 & H4 & H5) Hc. split; [exact H1|]. split; [exact H2|]. split; [apply Forall_app; auto|]. split; [|exact H5].
  intros X. destruct (H4 X) as (p & ->). exists p. rewrite <- app_assoc. reflexivity.
Qed.
Lemma A_cp t t' ub ub' s out x : A t ub s out -> (escaping s -> x < 128) -> Forall (fun c => 128 <= c) ub' ->
  (x = 92 -> exists p, t' = p ++ 92 :: ub') ->
  A t' ub' (fst (code_point opts (Some x) s)) (out ++ snd (code_point opts (Some x) s)).
Proof.
  intros (H1 & H2 & H3 & H4 & H5) Hx Hu Ht.
  assert (HE : escaping s -> forall y, Some x = Some y -> y < 128) by (intros X y Y; injection Y as <-; auto).
  destruct (ap_code_point (Some x) s H1 H2 HE) as [A1 A2].
  split; [exact A1|]. split; [apply cp_unq, H2|]. split; [exact Hu|]. split; [|apply Forall_app; auto].
  intros [E1 E2]. apply Ht. destruct (cp_hist (Some x) s H2) as [X|(X & _)]; [congruence|]. specialize (X E1 E2). congruence.
Qed.
Lemma A_byte0 t s out c : A t [] s out -> ~ escaped_non_ascii (t ++ [c]) ->
  let '(ub, l) := utf8_step [] c in
  A (t ++ [c]) ub (fst (code_points opts l s)) (out ++ snd (code_points opts l s)).
Proof.
  intros HK HG. unfold utf8_step. cbn [app hd List.length].
  destruct (Nat.ltb 1 (seq_length c)) eqn:E.
  - cbn. rewrite app_nil_r. apply (A_pend _ [] _ _ c); [exact HK|].
    unfold seq_length in E. destruct (c <? 0xC2) eqn:E1; [discriminate|lia].
  - cbn [code_points decode_buffer]. unfold andthen, nop, emit.
    assert (NE : escaping s -> c < 128).
    { intros X. destruct HK as (_ & _ & _ & H4 & _). destruct (H4 X) as (p & ->).
      destruct (N.lt_ge_cases c 128) as [L|L]; [exact L|]. exfalso. apply HG. exists p, c, []. rewrite <- app_assoc. auto. }
    assert (HX : forall x, (x = c \/ x = kReplacement /\ 128 <= c) ->
      A (t ++ [c]) [] (fst (code_point opts (Some x) s)) (out ++ snd (code_point opts (Some x) s))).
    { intros x Hx. eapply A_cp; [exact HK| |constructor|].
      - intros X. specialize (NE X). destruct Hx as [->|[_ Hx]]; lia.
      - intros ->. destruct Hx as [<-|[Hx _]]; [|discriminate]. exists t. reflexivity. }
    specialize (HX (if c <? 0x80 then c else kReplacement)).
    destruct (code_point opts _ s). cbn [fst snd] in *. rewrite app_nil_r. apply HX.
    destruct (c <? 0x80) eqn:Ec; [auto|]. right. split; [reflexivity|lia].
Qed.
Lemma esc_prefix t c : ~ escaped_non_ascii (t ++ [c]) -> ~ escaped_non_ascii t.
Proof. intros H (p & x & q & -> & Hx). apply H. exists p, x, (q ++ [c]). rewrite <- app_assoc. auto. Qed.
Lemma A_byte t ub s out c : A t ub s out -> ~ escaped_non_ascii (t ++ [c]) ->
  A (t ++ [c]) (fst (fst (input_byte opts (ub, s) c))) (snd (fst (input_byte opts (ub, s) c)))
    (out ++ snd (input_byte opts (ub, s) c)).
Proof.
  intros HK HG. unfold input_byte. cbn [fst snd].
  destruct ub as [|b ub].
  - pose proof (A_byte0 t s out c HK HG) as X. destruct (utf8_step [] c) as [ub' l].
    destruct (code_points opts l s). exact X.
  - assert (NE : ~ escaping s).
    { intros X. pose proof HK as (_ & _ & H3 & H4 & _). destruct (H4 X) as (p & ->). apply (esc_prefix _ _ HG).
      exists p, b, ub. split; [reflexivity|]. apply Forall_cons_iff in H3. apply H3. }
    destruct (u8_trail c) eqn:Et.
    + unfold utf8_step. rewrite Et.
      assert (Hc : 128 <= c) by (unfold u8_trail in Et; lia).
      destruct (Nat.ltb _ _).
      * cbn [code_points nop emit fst snd]. rewrite app_nil_r. apply A_pend; assumption.
      * cbn [code_points app]. unfold andthen, nop, emit.
        assert (HF : Forall (fun c => 128 <= c) ((b :: ub) ++ [c])) by (apply Forall_app; split; [apply HK|auto]).
        pose proof (decode_high _ HF) as DH. cbn [app] in DH.
        assert (X : A (t ++ [c]) [] (fst (code_point opts (Some (decode_buffer (b :: ub ++ [c]))) s))
          (out ++ snd (code_point opts (Some (decode_buffer (b :: ub ++ [c]))) s))).
        { eapply A_cp; [exact HK|tauto|constructor|]. intros Y. rewrite Y in DH. lia. }
        destruct (code_point opts _ s). cbn [fst snd] in *. rewrite app_nil_r. exact X.
    + assert (X : A t [] (fst (code_point opts (Some kReplacement) s)) (out ++ snd (code_point opts (Some kReplacement) s))).
      { eapply A_cp; [exact HK|tauto|constructor|discriminate]. }
      assert (E : utf8_step (b :: ub) c = (fst (utf8_step [] c), kReplacement :: snd (utf8_step [] c))).
      { unfold utf8_step. rewrite Et. destruct (Nat.ltb _ _); reflexivity. }
      rewrite E. cbn [code_points]. unfold andthen.
      destruct (code_point opts (Some kReplacement) s) as [s1 o1]. cbn [fst snd] in X.
      pose proof (A_byte0 t s1 _ c X HG) as Y. destruct (utf8_step [] c) as [ub' l]. cbn [fst snd].
      destruct (code_points opts l s1) as [s2 o2]. cbn [fst snd] in *. rewrite app_assoc. exact Y.
Qed.
Lemma A_loop t : ~ escaped_non_ascii t ->
  let r := loop (input_byte opts) ([], salvage_init) t in A t (fst (fst r)) (snd (fst r)) (snd r).
Proof.
  induction t as [|c t IH] using rev_ind; intros HG.
  - cbn. split; [exact I|]. split; [discriminate|]. split; [constructor|]. split; [intros [[] _]|constructor].
  - specialize (IH (esc_prefix _ _ HG)). cbn zeta in *. rewrite loop_app.
    destruct (loop (input_byte opts) ([], salvage_init) t) as [[ub s] out]. cbn [fst snd] in *.
    cbn [loop]. pose proof (A_byte t ub s out c IH HG) as X.
    destruct (input_byte opts (ub, s) c) as [[ub' s'] o']. cbn [fst snd] in *. rewrite app_nil_r. exact X.
Qed.
Lemma close_ascii : forall k key sep, ascii_text (close_all k key sep).
Proof.
  induction k as [|[|] k IH]; intros key sep; cbn [close_all]; [constructor| |];
    repeat (apply Forall_app; split); auto; try (apply asciib_ok; reflexivity).
  destruct key; [constructor|]. destruct sep; apply asciib_ok; reflexivity.
Qed.
Lemma salvage_ascii t : ~ escaped_non_ascii t -> ascii_text (salvage t).
Proof.
  intros H. unfold salvage. pose proof (A_loop t H) as X. cbn zeta in X.
  destruct (loop (input_byte opts) ([], salvage_init) t) as [[ub s] out]. cbn [fst snd] in *.
  destruct X as (X1 & X2 & X3 & X4 & X5). unfold input_end.
  assert (Y : sur_ok (fst (code_point opts None s)) /\ ascii_text (snd (code_point opts None s))).
  { apply ap_code_point; auto. discriminate. }
  destruct (code_point opts None s) as [s1 o1]. cbn [fst snd] in *.
  apply Forall_app. split; [exact X5|]. apply Forall_app. split; [apply Y|apply close_ascii].
Qed.
End Ascii.
End Whole.
