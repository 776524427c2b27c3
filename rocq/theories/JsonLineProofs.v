(** Line-oriented operators (C39): head, select_*, implode, explode, nth. *)
From Coq Require Import String NArith ZArith List Bool Lia ZifyBool ZifyN.
From Verif Require Import JsonModel JsonSpec JsonChunkProofs JsonProofs JsonPrettyProofs.
Import ListNotations.
Open Scope N_scope.

(** ** compactify followed by another processor *)
Lemma pure1 (p : processor) t : fst (pure [p] (init p, tt) t true) = text (process p (init p) t true).
Proof. cbn [pure]. cbv zeta. cbn [fst snd]. unfold oneshot. destruct t; reflexivity. Qed.

Lemma comp_then p js items : good p -> json_text js (given items) ->
  concat (run (composite [compact_proc; p]) items) = text (process p (init p) (lines js) true).
Proof.
  intros Hg Hj. assert (HF : Forall good [compact_proc; p]) by auto using compact_good.
  unfold run. rewrite (run_from_one _ (composite_splits _ _ HF) (composite_ends _ _ HF)).
  change (init (composite [compact_proc; p])) with (init compact_proc, (init p, tt)).
  rewrite (composite_once compact_proc [p] HF). rewrite pure1.
  assert (X : text (process compact_proc (init compact_proc) (given items) true) = lines js)
    by exact (comp_text js _ true Hj eq_refl).
  now rewrite X.
Qed.

Lemma comp_then2 p q js items : good p -> good q -> json_text js (given items) ->
  concat (run (composite [compact_proc; p; q]) items) =
  text (process q (init q) (text (process p (init p) (lines js) true)) true).
Proof.
  intros Hg Hq Hj. assert (HF : Forall good [compact_proc; p; q]) by auto using compact_good.
  unfold run. rewrite (run_from_one _ (composite_splits _ _ HF) (composite_ends _ _ HF)).
  change (init (composite [compact_proc; p; q])) with (init compact_proc, (init p, (init q, tt))).
  rewrite (composite_once compact_proc [p; q] HF).
  assert (X : text (process compact_proc (init compact_proc) (given items) true) = lines js)
    by exact (comp_text js _ true Hj eq_refl).
  rewrite X.
  cbn [pure]. cbv zeta. cbn [fst snd]. unfold oneshot.
  destruct Hg as (_ & He & _).
  destruct (lines js); cbn [fst snd]; rewrite He; destruct (text (process p (init p) _ true)); reflexivity.
Qed.

Lemma json_text_wf js t : json_text js t -> forallb wf_json js = true.
Proof. intros (w & s & _ & Hs & _). exact (spells_wf _ _ Hs). Qed.

(** ** The first characters of a compact spelling *)
Lemma num_char_range c : num_char c = true -> (43 <= c <= 57 /\ c <> 44 /\ c <> 47) \/ c = 101 \/ c = 69.
Proof. unfold num_char. lia. Qed.

Definition starts_value (c : byte) : bool :=
  negb (isspace c) && negb (c =? cComma) && negb (c =? cColon) && negb (c =? cRBracket) && negb (c =? cRBrace).

Lemma atom_starts c : atom_char c = true -> starts_value c = true.
Proof.
  intros H. apply atom_char_spec in H. destruct H as (E1 & E2 & E3 & E4 & E5 & E6 & E7 & E8).
  unfold starts_value. rewrite E1, E5, E6, E7, E8. reflexivity.
Qed.

Lemma compact_first j : wf_json j = true -> exists c r, compact j = c :: r /\ starts_value c = true /\
  (c = cLBrace <-> exists l, j = JObj l) /\ (c = cLBracket <-> exists l, j = JArr l) /\
  (c = 110 <-> j = JNull).
Proof.
  intros Hw. unfold compact. destruct j as [| | |l|b|l|l]; cbn [tokens].
  - exists 110, (lit "ull"). split; [reflexivity|]. split; [reflexivity|].
    split; [|split]; split; try reflexivity; try discriminate; intros [? ?]; discriminate.
  - exists 116, (lit "rue"). split; [reflexivity|]. split; [reflexivity|].
    split; [|split]; split; try reflexivity; try discriminate; intros [? ?]; discriminate.
  - exists 102, (lit "alse"). split; [reflexivity|]. split; [reflexivity|].
    split; [|split]; split; try reflexivity; try discriminate; intros [? ?]; discriminate.
  - cbn [wf_json] in Hw. destruct l as [|c l]; [discriminate|]. cbn [forallb negb andb] in Hw.
    apply andb_true_iff in Hw. destruct Hw as [Hc _]. exists c, l. split; [cbn; now rewrite app_nil_r|].
    split; [now apply atom_starts, num_char_atom|]. apply num_char_range in Hc.
    unfold cLBrace, cLBracket. split; [|split]; split; try discriminate; try (intros [? ?]; discriminate); intros ->; lia.
  - exists cQuote, (b ++ [cQuote]). split; [cbn; now rewrite app_nil_r|]. split; [reflexivity|].
    split; [|split]; split; try discriminate; intros [? ?]; discriminate.
  - exists cLBracket. eexists. split; [reflexivity|]. split; [reflexivity|].
    split; [|split]; split; try discriminate; try (intros [? ?]; discriminate); eauto.
  - exists cLBrace. eexists. split; [reflexivity|]. split; [reflexivity|].
    split; [|split]; split; try discriminate; try (intros [? ?]; discriminate); eauto.
Qed.

Lemma starts_value_spec c : starts_value c = true ->
  isspace c = false /\ (c =? cComma) = false /\ (c =? cColon) = false /\ (c =? cRBracket) = false /\ (c =? cRBrace) = false
  /\ (c =? cNewline) = false.
Proof.
  unfold starts_value. repeat rewrite andb_true_iff. repeat rewrite negb_true_iff.
  intros ((((E1 & E2) & E3) & E4) & E5). repeat split; auto.
  destruct (c =? cNewline) eqn:E; [|reflexivity]. apply N.eqb_eq in E. subst c. discriminate.
Qed.

Lemma concat_intercalate (sep : bytes) (l : list (list bytes)) :
  concat (intercalate [sep] l) = intercalate sep (map (@concat byte) l).
Proof.
  induction l as [|x l IH]; [reflexivity|]. destruct l as [|y l]; [reflexivity|].
  cbn [map]. rewrite !intercalate_cons by discriminate. rewrite !concat_app, IH. cbn [concat]. now rewrite app_nil_r.
Qed.

Lemma compact_arr l : compact (JArr l) = cLBracket :: intercalate [cComma] (map compact l) ++ [cRBracket].
Proof.
  unfold compact at 1. cbn [tokens concat]. rewrite concat_app, concat_intercalate, map_map. reflexivity.
Qed.

(** The second character tells an empty container from a nonempty one. *)
Lemma compact_arr_second x l : wf_json x = true ->
  exists c r, compact (JArr (x :: l)) = cLBracket :: c :: r /\ starts_value c = true.
Proof.
  intros Hx. destruct (compact_first x Hx) as (c & r & E & Hs & _).
  rewrite compact_arr. destruct l as [|y l]; cbn [map intercalate]; rewrite E; eexists c, _;
    (split; [reflexivity|exact Hs]).
Qed.

Lemma compact_obj_second kv l :
  exists r, compact (JObj (kv :: l)) = cLBrace :: cQuote :: r.
Proof.
  unfold compact. cbn [tokens map]. destruct l as [|y l]; eexists; reflexivity.
Qed.

(** ** Lines *)
Section Lines.
Variable S : Type.
Variable step : S -> byte -> S * bytes.
Variable s0 : S.
Variable keep : json -> list json.
Hypothesis Hline : forall j, wf_json j = true ->
  loop step s0 (compact j ++ [cNewline]) = (s0, lines (keep j)).

Lemma lines_loop js : forallb wf_json js = true -> loop step s0 (lines js) = (s0, lines (flat_map keep js)).
Proof.
  induction js as [|j js IH]; cbn [forallb flat_map]; intros Hw; [reflexivity|].
  apply andb_true_iff in Hw. destruct Hw as [Hj Hw].
  assert (E : lines (keep j ++ flat_map keep js) = lines (keep j) ++ lines (flat_map keep js))
    by apply flat_map_app.
  rewrite E. eapply loop_app_eq; [exact (Hline j Hj)|exact (IH Hw)].
Qed.
End Lines.

Lemma flat_map_filter {A} (f : A -> bool) l : flat_map (fun x => if f x then [x] else []) l = filter f l.
Proof. induction l as [|x l IH]; cbn; [reflexivity|]. destruct (f x); cbn; now rewrite IH. Qed.

Lemma loop_until_newline {S} (step : S -> byte -> S * bytes) (st s0 : S) (f : byte -> bytes) :
  (forall c, c <> cNewline -> step st c = (st, f c)) -> step st cNewline = (s0, f cNewline) ->
  forall t, ~ In cNewline t -> loop step st (t ++ [cNewline]) = (s0, flat_map f (t ++ [cNewline])).
Proof.
  intros H1 H2. induction t as [|c t IH]; intros Hn.
  - cbn. rewrite H2. reflexivity.
  - cbn [app]. rewrite loop_cons. rewrite H1 by (intros ->; apply Hn; now left). cbn [fst snd].
    rewrite IH by (intros Hin; apply Hn; now right). reflexivity.
Qed.

Lemma line1 j : lines [j] = compact j ++ [cNewline].
Proof. unfold lines. cbn [flat_map]. apply app_nil_r. Qed.

Lemma sel_nonempty_line open close j :
  open <> close -> close <> cNewline -> open <> cNewline ->
  wf_json j = true ->
  forall keep : bool,
  (keep = true -> exists c r, compact j = open :: c :: r /\ c <> close /\ c <> cNewline) ->
  (keep = false -> (exists c r, compact j = c :: r /\ c <> open) \/ compact j = [open; close]) ->
  loop (sel_nonempty_step open close) kStart (compact j ++ [cNewline]) =
  (kStart, if keep then compact j ++ [cNewline] else []).
Proof.
  intros Hoc Hcn Hon Hw keep H1 H2.
  pose proof (compact_no_newline j Hw) as Hnl.
  assert (Hdrop : forall t, ~ In cNewline t -> loop (sel_nonempty_step open close) kDropLine (t ++ [cNewline]) = (kStart, [])).
  { intros t Ht. rewrite (loop_until_newline _ kDropLine kStart (fun _ => @nil byte)); [now rewrite flat_map_nil| | |exact Ht].
    - intros c Hc. apply N.eqb_neq in Hc. cbn. now rewrite Hc.
    - reflexivity. }
  assert (Hkeep : forall t, ~ In cNewline t -> loop (sel_nonempty_step open close) kKeepLine (t ++ [cNewline]) = (kStart, t ++ [cNewline])).
  { intros t Ht. rewrite (loop_until_newline _ kKeepLine kStart (fun c => [c])); [now rewrite flat_map_single| | |exact Ht].
    - intros c Hc. apply N.eqb_neq in Hc. cbn. now rewrite Hc.
    - reflexivity. }
  destruct keep.
  - destruct (H1 eq_refl) as (c & r & E & Hc & Hcn2). rewrite E in *. cbn [app].
    rewrite loop_cons. cbn [sel_nonempty_step]. rewrite N.eqb_refl. cbn [fst snd].
    rewrite loop_cons. cbn [sel_nonempty_step]. apply N.eqb_neq in Hc. rewrite Hc. cbn [fst snd].
    rewrite Hkeep by (intros Hin; apply Hnl; right; now right). reflexivity.
  - destruct (H2 eq_refl) as [(c & r & E & Hc)|E]; rewrite E in *.
    + cbn [app]. rewrite loop_cons. cbn [sel_nonempty_step]. apply N.eqb_neq in Hc. rewrite Hc. cbn [fst snd].
      rewrite Hdrop by (intros Hin; apply Hnl; now right). reflexivity.
    + cbn [app]. rewrite loop_cons. cbn [sel_nonempty_step]. rewrite N.eqb_refl. cbn [fst snd].
      rewrite loop_cons. cbn [sel_nonempty_step]. rewrite N.eqb_refl. cbn [fst snd].
      change [cNewline] with ([] ++ [cNewline]). rewrite Hdrop by auto. reflexivity.
Qed.

Lemma sel_run (step : sel_state -> byte -> sel_state * bytes) (i : sel_state) (keep : json -> bool) js : (forall j, wf_json j = true ->
    loop step i (compact j ++ [cNewline]) = (i, if keep j then compact j ++ [cNewline] else [])) ->
  forallb wf_json js = true ->
  text (process (@loop_proc sel_state i step) (init (loop_proc i step)) (lines js) true) = lines (filter keep js).
Proof.
  intros H Hw. cbn [process loop_proc init].
  rewrite (lines_loop _ step i (fun j => if keep j then [j] else [])); [|  |exact Hw].
  - rewrite single_text. now rewrite flat_map_filter.
  - intros j Hj. rewrite (H j Hj). destruct (keep j); [now rewrite line1|reflexivity].
Qed.

Lemma run_select_objects js items : json_text js (given items) ->
  concat (run (op_proc OpSelectNonemptyObjects) items) = lines (filter nonempty_object js).
Proof.
  intros Hj. pose proof (json_text_wf _ _ Hj) as Hw. cbn [op_proc].
  refine (eq_trans (comp_then sel_objects_proc js items (loop_good _ _) Hj) _). apply sel_run; [|exact Hw].
  intros j Hjw. apply sel_nonempty_line; try discriminate; try assumption.
  - destruct j as [| | |l|b|l|[|kv l]]; try discriminate. intros _.
    destruct (compact_obj_second kv l) as (r & E). exists cQuote, r. split; [exact E|]. split; discriminate.
  - intros Hk. destruct j as [| | |l|b|l|[|kv l]]; try discriminate Hk; try (right; reflexivity); left;
      (match goal with |- exists c r, compact ?j = _ /\ _ => destruct (compact_first j Hjw) as (c & r & E & _ & Ho & _) end;
       exists c, r; split; [exact E|]; intros ->; destruct (proj1 Ho eq_refl); discriminate).
Qed.

Lemma run_select_arrays js items : json_text js (given items) ->
  concat (run (op_proc OpSelectNonemptyArrays) items) = lines (filter nonempty_array js).
Proof.
  intros Hj. pose proof (json_text_wf _ _ Hj) as Hw. cbn [op_proc].
  refine (eq_trans (comp_then sel_arrays_proc js items (loop_good _ _) Hj) _). apply sel_run; [|exact Hw].
  intros j Hjw. apply sel_nonempty_line; try discriminate; try assumption.
  - destruct j as [| | |l|b|[|x l]|l]; try discriminate. intros _.
    cbn [wf_json forallb] in Hjw. apply andb_true_iff in Hjw. destruct Hjw as [Hx _].
    destruct (compact_arr_second x l Hx) as (c & r & E & Hs). exists c, r. split; [exact E|].
    apply starts_value_spec in Hs. destruct Hs as (_ & _ & _ & H1 & _ & H2).
    apply N.eqb_neq in H1, H2. now split.
  - intros Hk. destruct j as [| | |l|b|[|x l]|l]; try discriminate Hk; try (right; reflexivity); left;
      (match goal with |- exists c r, compact ?j = _ /\ _ => destruct (compact_first j Hjw) as (c & r & E & _ & _ & Ho & _) end;
       exists c, r; split; [exact E|]; intros ->; destruct (proj1 Ho eq_refl); discriminate).
Qed.

Lemma run_select_nonnull js items : json_text js (given items) ->
  concat (run (op_proc OpSelectNonnull) items) = lines (filter nonnull js).
Proof.
  intros Hj. pose proof (json_text_wf _ _ Hj) as Hw. cbn [op_proc].
  refine (eq_trans (comp_then sel_nonnull_proc js items (loop_good _ _) Hj) _). apply sel_run; [|exact Hw].
  intros j Hjw. destruct (compact_first j Hjw) as (c & r & E & Hs & _ & _ & Hn).
  pose proof (compact_no_newline j Hjw) as Hnl. rewrite E in *. cbn [app]. rewrite loop_cons.
  assert (Hr : ~ In cNewline r) by (intros Hin; apply Hnl; now right).
  cbn [sel_nonnull_step]. destruct (c =? 110) eqn:Ec.
  - apply N.eqb_eq in Ec. rewrite (proj1 Hn Ec). cbn [nonnull fst snd].
    rewrite (loop_until_newline _ kDropLine kStart (fun _ => @nil byte)); [now rewrite flat_map_nil| | |exact Hr].
    + intros d Hd. apply N.eqb_neq in Hd. cbn. now rewrite Hd.
    + reflexivity.
  - apply N.eqb_neq in Ec. assert (Hk : nonnull j = true) by (destruct j; auto; exfalso; apply Ec, Hn; reflexivity).
    rewrite Hk. cbn [fst snd].
    rewrite (loop_until_newline _ kKeepLine kStart (fun c => [c])); [now rewrite flat_map_single| | |exact Hr].
    + intros d Hd. apply N.eqb_neq in Hd. cbn. now rewrite Hd.
    + reflexivity.
Qed.

(** ** head *)
Lemma head_loop_line n line t rest : ~ In cNewline t ->
  head_loop n line (t ++ cNewline :: rest) =
  if (n <=? line + 1)%Z then ((line + 1)%Z, t ++ [cNewline], true)
  else let '(l2, o2, e2) := head_loop n (line + 1) rest in (l2, t ++ cNewline :: o2, e2).
Proof.
  induction t as [|c t IH]; intros Hn; cbn [app head_loop].
  - change (cNewline =? cNewline) with true. cbv iota zeta. reflexivity.
  - assert (Hc : c <> cNewline) by (intros ->; apply Hn; now left). apply N.eqb_neq in Hc. rewrite Hc.
    rewrite IH by (intros Hin; apply Hn; now right).
    destruct (n <=? line + 1)%Z; [reflexivity|]. destruct (head_loop n (line + 1) rest) as [[l2 o2] e2]. reflexivity.
Qed.

Lemma head_loop_lines n js : forallb wf_json js = true -> forall line, (line < n)%Z ->
  snd (fst (head_loop n line (lines js))) = lines (firstn (Z.to_nat (n - line)) js).
Proof.
  induction js as [|j js IH]; intros Hw line Hl.
  - now rewrite firstn_nil.
  - cbn [forallb] in Hw. apply andb_true_iff in Hw. destruct Hw as [Hj Hw].
    replace (lines (j :: js)) with (compact j ++ cNewline :: lines js)
      by (unfold lines; cbn [flat_map]; now rewrite <- app_assoc).
    rewrite head_loop_line by (now apply compact_no_newline).
    destruct (n <=? line + 1)%Z eqn:E.
    + replace (Z.to_nat (n - line)) with 1%nat by lia. cbn [firstn fst snd]. now rewrite line1.
    + replace (Z.to_nat (n - line)) with (Datatypes.S (Z.to_nat (n - (line + 1)))) by lia. cbn [firstn].
      specialize (IH Hw (line + 1)%Z ltac:(lia)).
      destruct (head_loop n (line + 1) (lines js)) as [[l2 o2] e2]. cbn [fst snd] in *. rewrite IH.
      unfold lines. cbn [flat_map]. now rewrite <- app_assoc.
Qed.

Lemma run_head n js items : json_text js (given items) ->
  concat (run (op_proc (OpHead n)) items) = lines (firstn (Z.to_nat n) js).
Proof.
  intros Hj. pose proof (json_text_wf _ _ Hj) as Hw. cbn [op_proc].
  refine (eq_trans (comp_then (head_proc n) js items (head_good n) Hj) _). cbn [process head_proc init]. unfold head_process.
  destruct (n <=? 0)%Z eqn:E.
  - replace (Z.to_nat n) with 0%nat by lia. apply single_text.
  - pose proof (head_loop_lines n js Hw 0%Z ltac:(lia)) as H. rewrite Z.sub_0_r in H.
    destruct (head_loop n 0 (lines js)) as [[l2 o2] e2]. cbn [fst snd] in H.
    destruct e2; rewrite single_text; exact H.
Qed.

(** ** implode *)
Lemma impl_text b t : ~ In cNewline t -> t <> [] ->
  loop impl_step (mkImpl true b) (t ++ [cNewline]) = (mkImpl true true, (if b then [cComma] else []) ++ t).
Proof.
  destruct t as [|c t]; [congruence|]. intros Hn _. cbn [app]. rewrite loop_cons.
  assert (Hc : c <> cNewline) by (intros ->; apply Hn; now left). apply N.eqb_neq in Hc.
  assert (E : impl_step (mkImpl true b) c = (mkImpl true false, (if b then [cComma] else []) ++ [c])).
  { unfold impl_step. rewrite Hc. destruct b; reflexivity. }
  rewrite E. cbn [fst snd].
  rewrite (loop_until_newline _ (mkImpl true false) (mkImpl true true) (fun c => if c =? cNewline then [] else [c])).
  - cbn [fst snd]. rewrite flat_map_app. cbn [flat_map]. change (cNewline =? cNewline) with true.
    rewrite !app_nil_r. rewrite <- app_assoc. f_equal. f_equal. cbn [app]. f_equal.
    assert (Ht : ~ In cNewline t) by (intros Hin; apply Hn; now right). clear -Ht.
    induction t as [|c t IH]; [reflexivity|]. cbn [flat_map].
    assert (Hc : c <> cNewline) by (intros ->; apply Ht; now left). apply N.eqb_neq in Hc. rewrite Hc.
    cbn [app]. f_equal. apply IH. intros Hin. apply Ht. now right.
  - intros d Hd. apply N.eqb_neq in Hd. unfold impl_step. now rewrite Hd.
  - reflexivity.
  - intros Hin. apply Hn. now right.
Qed.

Lemma impl_lines js : forallb wf_json js = true -> forall b,
  snd (loop impl_step (mkImpl true b) (lines js)) =
  (match js with [] => [] | _ => if b then [cComma] else [] end) ++ intercalate [cComma] (map compact js) /\
  i_opened (fst (loop impl_step (mkImpl true b) (lines js))) = true.
Proof.
  induction js as [|j js IH]; intros Hw b; [split; reflexivity|].
  cbn [forallb] in Hw. apply andb_true_iff in Hw. destruct Hw as [Hj Hw].
  destruct (compact_first j Hj) as (c & r & E & _).
  assert (Hne : compact j <> []) by (rewrite E; discriminate).
  pose proof (impl_text b (compact j) (compact_no_newline j Hj) Hne) as L.
  destruct (IH Hw true) as [I1 I2].
  destruct (loop impl_step (mkImpl true true) (lines js)) as [s2 o2] eqn:L2. cbn [fst snd] in I1, I2.
  pose proof (loop_app_eq _ _ _ _ _ _ _ _ L L2) as L3.
  replace (loop impl_step (mkImpl true b) (lines (j :: js))) with (s2, ((if b then [cComma] else []) ++ compact j) ++ o2)
    by (symmetry; exact L3).
  cbn [fst snd]. rewrite I1, I2. split; [|reflexivity]. rewrite <- app_assoc. f_equal. destruct js as [|j2 js]; [cbn; now rewrite app_nil_r|reflexivity].
Qed.

Lemma run_implode js items : json_text js (given items) ->
  concat (run (op_proc OpImplodeArray) items) = lines [JArr js].
Proof.
  intros Hj. pose proof (json_text_wf _ _ Hj) as Hw. cbn [op_proc].
  refine (eq_trans (comp_then implode_proc js items implode_good Hj) _). cbn [process implode_proc init]. unfold impl_process.
  cbn [i_opened i_comma]. destruct (impl_lines js Hw false) as [I1 I2].
  destruct (loop impl_step (mkImpl true false) (lines js)) as [s o]. cbn [fst snd] in *.
  rewrite I2, single_text, line1, compact_arr, I1. cbn [app].
  f_equal. destruct js; [reflexivity|]. cbn [app]. now rewrite <- app_assoc.
Qed.

(** ** Container contents, generically: a value at nesting depth 1 inside a
    top-level array *)

(** [j] spelled by [t] starts with a character that opens a value. *)
Lemma spell_first j t : wf_json j = true -> spell (tokens j) t ->
  exists c r, t = c :: r /\ starts_value c = true.
Proof.
  intros Hw Ht. destruct (compact_first j Hw) as (c & r & E & Hs & _). unfold compact in E.
  destruct (tokens j) as [|k ks] eqn:Ek; [exfalso; exact (tokens_nonempty _ Ek)|].
  apply spell_cons_inv in Ht. destruct Ht as (w & t' & _ & _ & ->).
  assert (Hk : k <> []).
  { destruct j; cbn [tokens] in Ek; injection Ek as <- _; try discriminate.
    cbn [wf_json] in Hw. destruct l; [discriminate|discriminate]. }
  destruct k as [|c' k]; [congruence|]. cbn [concat app] in E. injection E as -> _.
  exists c, (k ++ w ++ t'). split; [reflexivity|exact Hs].
Qed.

Lemma spell_list_first x l t : wf_json x = true ->
  spell (intercalate [[cComma]] (map tokens (x :: l))) t ->
  exists c r, t = c :: r /\ starts_value c = true.
Proof.
  intros Hw Ht. destruct l as [|y l]; [exact (spell_first x t Hw Ht)|].
  cbn [map] in Ht. rewrite intercalate_cons in Ht by discriminate.
  apply spell_app_inv in Ht. destruct Ht as (t1 & t2 & -> & H1 & _).
  destruct (spell_first x t1 Hw H1) as (c & r & -> & Hc). exists c, (r ++ t2). split; [reflexivity|exact Hc].
Qed.

Section Elements.
Variable S : Type.
Variable step : S -> byte -> S * bytes.
(** [ini i]: before the first character of element [i]; [mid i]: after it *)
Variable ini mid : Z -> S.
Variable out : Z -> json -> bytes.      (* what element [i] prints *)
Variable sep : Z -> bytes.              (* what the comma after element [i] prints *)
Hypothesis Hini : forall i w, forallb is_ws w = true -> loop step (ini i) w = (ini i, []).
Hypothesis Hel : forall i j t, wf_json j = true -> spell (tokens j) t ->
  loop step (ini i) t = (mid i, out i j).
Hypothesis Hsep : forall i, step (mid i) cComma = (ini (i + 1), sep i).

Fixpoint elems (i : Z) (l : list json) : bytes :=
  match l with
  | [] => []
  | [x] => out i x
  | x :: l' => out i x ++ sep i ++ elems (i + 1) l'
  end.

Lemma elements_loop l : l <> [] -> forall i t, forallb wf_json l = true ->
  spell (intercalate [[cComma]] (map tokens l)) t ->
  loop step (ini i) t = (mid (i + Z.of_nat (List.length l) - 1), elems i l).
Proof.
  induction l as [|x l IH]; intros Hne i t Hw Ht; [congruence|].
  cbn [forallb] in Hw. apply andb_true_iff in Hw. destruct Hw as [Hx Hw]. destruct l as [|y l].
  - cbn [map intercalate List.length elems] in *. rewrite (Hel i x t Hx Ht). f_equal. f_equal. lia.
  - cbn [map] in Ht. rewrite intercalate_cons in Ht by discriminate.
    apply spell_app_inv in Ht. destruct Ht as (t1 & t2 & -> & H1 & H2).
    cbn [app] in H2. apply spell_cons_inv in H2. destruct H2 as (w & t3 & Hww & H3 & ->).
    specialize (IH ltac:(discriminate) (i + 1)%Z t3 Hw H3).
    pose proof (loop_app_eq _ _ _ _ _ _ _ _ (Hini (i + 1)%Z w Hww) IH) as L1.
    assert (L2 : loop step (mid i) [cComma] = (ini (i + 1)%Z, sep i)) by (cbn; rewrite Hsep; now rewrite app_nil_r).
    pose proof (loop_app_eq _ _ _ _ _ _ _ _ (Hel i x t1 Hx H1) (loop_app_eq _ _ _ _ _ _ _ _ L2 L1)) as L.
    refine (eq_trans L _). f_equal. f_equal. cbn [List.length]. lia.
Qed.
End Elements.

(** ** explode *)
Definition XI (top : bool) (d : Z) : expl_st := mkExpl d top true false false.
Definition XA (top : bool) (d : Z) : expl_st := mkExpl d top true true false.
Definition XE (top : bool) (d : Z) : expl_st := mkExpl d top true true true.
Definition Xf (top : bool) (c : byte) : bytes := if top then [c] else [].

Lemma eqb_false_of (d : Z) k : d <> k -> (d =? k)%Z = false.
Proof. intros. now apply Z.eqb_neq. Qed.

Ltac expl_trans :=
  first [ solve [auto using spell_ws_all] |
  clear; unfold XI, XA, XE, Xf, expl_step;
  first
  [ solve [intros d c Hd Hc _; pose proof (is_ws_isspace _ Hc) as E; unfold is_ws in Hc;
      repeat rewrite orb_true_iff in Hc; repeat rewrite N.eqb_eq in Hc;
      destruct Hc as [[[-> | ->]| ->]| ->]; reflexivity]
  | solve [intros d c Hd Hc; apply atom_char_spec in Hc; destruct Hc as (-> & -> & -> & -> & -> & -> & -> & _); reflexivity]
  | solve [intros d c Hd [-> | ->]; cbn -[Z.add Z.eqb]; rewrite ?(eqb_false_of (d + 1) 1) by lia; reflexivity]
  | solve [intros d c Hd [-> | ->]; cbn -[Z.add Z.sub Z.eqb]; rewrite ?andb_false_r, Z.add_simpl_r, ?(eqb_false_of d 0) by lia; reflexivity]
  | solve [intros d c Hd H1 H2; apply N.eqb_neq in H1, H2; rewrite H1, H2; reflexivity]
  | solve [intros d Hd; cbn -[Z.eqb]; rewrite ?(eqb_false_of d 1) by lia; rewrite ?andb_false_r; reflexivity]
  | solve [intros d Hd; cbn -[Z.eqb]; reflexivity]
  | solve [cbn; reflexivity] ] ].

Lemma expl_value top d j t : (1 <= d)%Z -> wf_json j = true -> spell (tokens j) t ->
  loop expl_step (XI top d) t = (XI top d, flat_map (Xf top) (compact j)).
Proof.
  intros Hd Hw Ht.
  apply (trans_json expl_st expl_step (XI top) (XA top) (XE top) (Xf top) 1%Z (fun _ => true)); expl_trans.
Qed.

Lemma expl_obj_body l t : forallb (fun kv => body_ok (fst kv) && wf_json (snd kv)) l = true ->
  spell (intercalate [[cComma]] (map (fun kv => quoted (fst kv) :: [cColon] :: tokens (snd kv)) l)) t ->
  loop expl_step (XI false 1) t = (XI false 1, []).
Proof.
  intros Hw Ht. rewrite <- (flat_map_nil (concat (intercalate [[cComma]] (map (fun kv => quoted (fst kv) :: [cColon] :: tokens (snd kv)) l)))).
  apply (trans_obj expl_st expl_step (XI false) (XA false) (XE false) (Xf false) 1%Z (fun _ => true)); expl_trans.
Qed.

Lemma flat_map_Xf top t : flat_map (Xf top) t = if top then t else [].
Proof. unfold Xf. destruct top; [apply flat_map_single|apply flat_map_nil]. Qed.

(** the state between top-level values; has_contents_ is whatever it was *)
Definition X0 (h : bool) : expl_st := mkExpl 0 false h false false.
Definition X1 (h : bool) : expl_st := mkExpl 1 true h false false.

Lemma expl_ws s w : e_in_string s = false -> forallb is_ws w = true -> loop expl_step s w = (s, []).
Proof.
  intros Hs Hw. rewrite (loop_const expl_step s (fun _ => []) is_ws); [now rewrite flat_map_nil| |exact Hw].
  intros c Hc. destruct s as [d top h ins esc]. cbn in Hs. subst ins. unfold is_ws in Hc.
  repeat rewrite orb_true_iff in Hc. repeat rewrite N.eqb_eq in Hc.
  destruct Hc as [[[-> | ->]| ->]| ->]; reflexivity.
Qed.

(** the first character of a value sets has_contents_ *)
Lemma expl_first c h : starts_value c = true -> expl_step (X1 h) c = expl_step (X1 true) c.
Proof.
  intros Hc. apply starts_value_spec in Hc. destruct Hc as (E1 & E2 & E3 & E4 & E5 & E6).
  unfold X1, expl_step. rewrite E1, E2, E4, E5. reflexivity.
Qed.

Lemma expl_elem h j t : wf_json j = true -> spell (tokens j) t ->
  loop expl_step (X1 h) t = (X1 true, compact j).
Proof.
  intros Hw Ht. pose proof (expl_value true 1 j t (Z.le_refl _) Hw Ht) as L. rewrite flat_map_Xf in L.
  refine (eq_trans _ L). change (XI true 1) with (X1 true).
  destruct (spell_first j t Hw Ht) as (c & r & -> & Hc). cbn [loop]. now rewrite (expl_first c h Hc).
Qed.

Lemma elems_newline i l : elems (fun _ => compact) (fun _ => [cNewline]) i l ++ (match l with [] => [] | _ => [cNewline] end) = lines l.
Proof.
  revert i. induction l as [|x l IH]; intros i; [reflexivity|]. destruct l as [|y l].
  - cbn [elems]. now rewrite line1.
  - change (elems (fun _ => compact) (fun _ => [cNewline]) i (x :: y :: l))
      with (compact x ++ [cNewline] ++ elems (fun _ => compact) (fun _ => [cNewline]) (i + 1) (y :: l)).
    rewrite <- !app_assoc. rewrite (IH (i + 1)%Z).
    change (lines (x :: y :: l)) with ((compact x ++ [cNewline]) ++ lines (y :: l)). now rewrite <- app_assoc.
Qed.

Lemma expl_top h j t : wf_json j = true -> spell (tokens j) t ->
  exists h', loop expl_step (X0 h) t = (X0 h', lines (elements j)).
Proof.
  intros Hw Ht. destruct (atom_text j) as [a|] eqn:Ea.
  - destruct (atom_text_ok j a Ea Hw) as (Hne & Hc & Htk). rewrite Htk in *.
    apply spell_cons_inv in Ht. destruct Ht as (w & t' & Hww & Ht' & ->). apply spell_nil_inv in Ht'. subst t'.
    rewrite app_nil_r. exists true.
    replace (lines (elements j)) with (@nil byte ++ []) by (destruct j; try discriminate; reflexivity).
    eapply loop_app_eq; [|apply expl_ws; [reflexivity|exact Hww]].
    assert (E : forall h c, atom_char c = true -> expl_step (X0 h) c = (X0 true, [])).
    { intros h0 c Hc0. apply atom_char_spec in Hc0. destruct Hc0 as (E1 & E2 & E3 & E4 & E5 & E6 & E7 & _).
      unfold X0, expl_step. rewrite E1, E2, E3, E4, E5, E6, E7. reflexivity. }
    destruct a as [|c a]; [congruence|]. cbn [forallb] in Hc. apply andb_true_iff in Hc. destruct Hc as [Hc1 Hc2].
    rewrite loop_cons, (E h c Hc1). cbn [fst snd].
    rewrite (loop_const expl_step (X0 true) (fun _ => []) atom_char); [now rewrite flat_map_nil|auto|exact Hc2].
  - destruct j as [| | |l|b|l|l]; try discriminate Ea; clear Ea; cbn [tokens wf_json elements] in *.
    + apply spell_cons_inv in Ht. destruct Ht as (w & t' & Hww & Ht' & ->). apply spell_nil_inv in Ht'. subst t'.
      rewrite app_nil_r. exists true. change (lines []) with (@nil byte ++ []).
      eapply loop_app_eq; [|apply expl_ws; [reflexivity|exact Hww]].
      unfold quoted. rewrite loop_cons. change (expl_step (X0 h) cQuote) with (XA false 0, @nil byte). cbn [fst snd].
      rewrite (loop_string expl_step (XA false 0) (XE false 0) (X0 true) (fun _ => []) []); auto.
      * cbn [fst snd]. now rewrite flat_map_nil.
      * intros c H1 H2. unfold XA, expl_step. apply N.eqb_neq in H1, H2. rewrite H1, H2. reflexivity.
    + apply spell_cons_inv in Ht. destruct Ht as (w & t' & Hww & Ht & ->).
      apply spell_app_inv in Ht. destruct Ht as (t1 & t2 & -> & H1 & H2).
      apply spell_cons_inv in H2. destruct H2 as (w2 & t3 & Hw2 & H3 & ->). apply spell_nil_inv in H3. subst t3.
      rewrite app_nil_r. exists false.
      assert (L0 : loop expl_step (X0 h) [cLBracket] = (X1 false, [])) by reflexivity.
      assert (L1 : loop expl_step (X1 false) w = (X1 false, [])) by (apply expl_ws; [reflexivity|exact Hww]).
      assert (L4 : forall h, loop expl_step (X0 h) w2 = (X0 h, [])) by (intros; apply expl_ws; [reflexivity|exact Hw2]).
      destruct l as [|x l].
      * cbn [map intercalate] in H1. apply spell_nil_inv in H1. subst t1.
        assert (L3 : loop expl_step (X1 false) [cRBracket] = (X0 false, [])) by reflexivity.
        exact (loop_app_eq _ _ _ _ _ _ _ _ L0 (loop_app_eq _ _ _ _ _ _ _ _ L1 (loop_app_eq _ _ _ _ _ _ _ _ L3 (L4 false)))).
      * assert (L2 : loop expl_step (X1 false) t1 = (X1 true, elems (fun _ => compact) (fun _ => [cNewline]) 0 (x :: l))).
        { pose proof Hw as Hwx. cbn [forallb] in Hwx. apply andb_true_iff in Hwx. destruct Hwx as [Hx _].
          refine (eq_trans _ (elements_loop expl_st expl_step (fun _ => X1 true) (fun _ => X1 true) (fun _ => compact) (fun _ => [cNewline])
            (fun i w0 Hw0 => expl_ws (X1 true) w0 eq_refl Hw0) (fun i j0 t0 Hj0 Ht0 => expl_elem true j0 t0 Hj0 Ht0)
            (fun _ => eq_refl) (x :: l) ltac:(discriminate) 0%Z t1 Hw H1)).
          destruct (spell_list_first x l t1 Hx H1) as (c & r & -> & Hc). cbn [loop]. now rewrite (expl_first c false Hc). }
        assert (L3 : loop expl_step (X1 true) [cRBracket] = (X0 false, [cNewline])) by reflexivity.
        pose proof (loop_app_eq _ _ _ _ _ _ _ _ L0 (loop_app_eq _ _ _ _ _ _ _ _ L1 (loop_app_eq _ _ _ _ _ _ _ _ L2
          (loop_app_eq _ _ _ _ _ _ _ _ L3 (L4 false))))) as L.
        refine (eq_trans L _). f_equal. rewrite <- (elems_newline 0 (x :: l)). reflexivity.
    + apply spell_cons_inv in Ht. destruct Ht as (w & t' & Hww & Ht & ->).
      apply spell_app_inv in Ht. destruct Ht as (t1 & t2 & -> & H1 & H2).
      apply spell_cons_inv in H2. destruct H2 as (w2 & t3 & Hw2 & H3 & ->). apply spell_nil_inv in H3. subst t3.
      rewrite app_nil_r. exists true.
      assert (L0 : loop expl_step (X0 h) [cLBrace] = (XI false 1, [])) by reflexivity.
      assert (L1 : loop expl_step (XI false 1) w = (XI false 1, [])) by (apply expl_ws; [reflexivity|exact Hww]).
      assert (L3 : loop expl_step (XI false 1) [cRBrace] = (X0 true, [])) by reflexivity.
      assert (L4 : loop expl_step (X0 true) w2 = (X0 true, [])) by (apply expl_ws; [reflexivity|exact Hw2]).
      exact (loop_app_eq _ _ _ _ _ _ _ _ L0 (loop_app_eq _ _ _ _ _ _ _ _ L1
        (loop_app_eq _ _ _ _ _ _ _ _ (expl_obj_body l t1 Hw H1) (loop_app_eq _ _ _ _ _ _ _ _ L3 L4)))).
Qed.

Lemma lines_app a b : lines (a ++ b) = lines a ++ lines b.
Proof. apply flat_map_app. Qed.

Lemma expl_stream js t : spells js t -> forall h,
  exists h', loop expl_step (X0 h) t = (X0 h', lines (flat_map elements js)).
Proof.
  induction 1 as [|j t Hw Ht|j t js s Hw Ht He Hs IH]; intros h.
  - exists h. reflexivity.
  - destruct (expl_top h j t Hw Ht) as (h' & E). exists h'. cbn [flat_map]. now rewrite app_nil_r.
  - destruct (expl_top h j t Hw Ht) as (h1 & E1). destruct (IH h1) as (h2 & E2). exists h2.
    cbn [flat_map]. rewrite lines_app. exact (loop_app_eq _ _ _ _ _ _ _ _ E1 E2).
Qed.

Lemma run_explode js items : json_text js (given items) ->
  concat (run (op_proc OpExplodeArray) items) = lines (flat_map elements js).
Proof.
  intros (w & s & Hw & Hs & E). rewrite op_run_once, E.
  destruct (expl_stream js s Hs false) as (h & L).
  assert (L0 : loop expl_step (X0 false) w = (X0 false, [])) by (apply expl_ws; [reflexivity|exact Hw]).
  pose proof (loop_app_eq _ _ _ _ _ _ _ _ L0 L) as L1.
  cbn [op_proc process explode_proc loop_proc init].
  match goal with |- text (let '(_, _) := ?x in _) = _ => replace x with (X0 h, lines (flat_map elements js)) by (symmetry; exact L1) end.
  apply single_text.
Qed.

(** ** nth *)
Section Nth.
Variable n : Z.
Hypothesis Hn : (0 <= n)%Z.

Definition NI (top : bool) (i : Z) (em : bool) (d : Z) : nth_st := mkNth d top i true em false false.
Definition NA (top : bool) (i : Z) (em : bool) (d : Z) : nth_st := mkNth d top i true em true false.
Definition NE (top : bool) (i : Z) (em : bool) (d : Z) : nth_st := mkNth d top i true em true true.
Definition Nf (top : bool) (i : Z) (c : byte) : bytes := if top && (i =? n)%Z then [c] else [].

Ltac nth_trans :=
  first [ solve [auto using spell_ws_all] |
  clear; unfold NI, NA, NE, Nf, nth_step;
  first
  [ solve [intros d c Hd Hc _; unfold is_ws in Hc;
      repeat rewrite orb_true_iff in Hc; repeat rewrite N.eqb_eq in Hc;
      destruct Hc as [[[-> | ->]| ->]| ->]; cbn -[Z.eqb]; rewrite ?andb_false_r; reflexivity]
  | solve [intros d c Hd Hc; apply atom_char_spec in Hc; destruct Hc as (-> & -> & -> & -> & -> & -> & -> & _);
      rewrite (eqb_false_of d 0) by lia;
      cbn [negb]; rewrite andb_true_r; repeat match goal with b : bool |- _ => destruct b end; reflexivity]
  | solve [intros d c Hd [-> | ->]; cbn -[Z.add Z.eqb]; rewrite ?(eqb_false_of (d + 1) 1), ?(eqb_false_of d 0) by lia; reflexivity]
  | solve [intros d c Hd [-> | ->]; cbn -[Z.add Z.sub Z.eqb]; rewrite ?andb_false_r, Z.add_simpl_r, ?(eqb_false_of d 0) by lia; reflexivity]
  | solve [intros d c Hd H1 H2; apply N.eqb_neq in H1, H2; rewrite H1, H2; reflexivity]
  | solve [intros d Hd; cbn -[Z.eqb]; rewrite ?(eqb_false_of d 1), ?(eqb_false_of d 0) by lia; rewrite ?andb_false_r, ?andb_true_r; repeat match goal with b : bool |- _ => destruct b end; reflexivity]
  | solve [intros d Hd; cbn -[Z.eqb]; reflexivity]
  | solve [cbn; reflexivity] ] ].

Lemma nth_value top i em d j t : (1 <= d)%Z -> wf_json j = true -> spell (tokens j) t ->
  loop (nth_step n) (NI top i em d) t = (NI top i em d, flat_map (Nf top i) (compact j)).
Proof.
  intros Hd Hw Ht.
  apply (trans_json nth_st (nth_step n) (NI top i em) (NA top i em) (NE top i em) (Nf top i) 1%Z (fun _ => true)); nth_trans.
Qed.

Lemma nth_obj_body i em l t : forallb (fun kv => body_ok (fst kv) && wf_json (snd kv)) l = true ->
  spell (intercalate [[cComma]] (map (fun kv => quoted (fst kv) :: [cColon] :: tokens (snd kv)) l)) t ->
  loop (nth_step n) (NI false i em 1) t = (NI false i em 1, []).
Proof.
  intros Hw Ht. rewrite <- (flat_map_nil (concat (intercalate [[cComma]] (map (fun kv => quoted (fst kv) :: [cColon] :: tokens (snd kv)) l)))).
  apply (trans_obj nth_st (nth_step n) (NI false i em) (NA false i em) (NE false i em) (Nf false i) 1%Z (fun _ => true)); nth_trans.
Qed.

Definition N0 : nth_st := mkNth 0 false 0 false false false false.

Lemma nth_ws s w : n_in_string s = false -> forallb is_ws w = true -> loop (nth_step n) s w = (s, []).
Proof.
  intros Hs Hw. rewrite (loop_const (nth_step n) s (fun _ => []) is_ws); [now rewrite flat_map_nil| |exact Hw].
  intros c Hc. destruct s as [d top i h em ins esc]. cbn in Hs. subst ins. unfold is_ws in Hc.
  repeat rewrite orb_true_iff in Hc. repeat rewrite N.eqb_eq in Hc.
  destruct Hc as [[[-> | ->]| ->]| ->]; cbn -[Z.eqb]; rewrite ?andb_false_r; reflexivity.
Qed.

Definition NT (i : Z) (h : bool) : nth_st := mkNth 1 true i h (n <? i)%Z false false.

Lemma nth_first c i h : starts_value c = true -> nth_step n (NT i h) c = nth_step n (NT i true) c.
Proof.
  intros Hc. apply starts_value_spec in Hc. destruct Hc as (E1 & E2 & E3 & E4 & E5 & E6).
  unfold NT, nth_step. rewrite E1, E2, E4, E5. reflexivity.
Qed.

Lemma nth_elem i j t : wf_json j = true -> spell (tokens j) t ->
  loop (nth_step n) (NT i true) t = (NT i true, if (i =? n)%Z then compact j else []).
Proof.
  intros Hw Ht. pose proof (nth_value true i (n <? i)%Z 1 j t (Z.le_refl _) Hw Ht) as L.
  refine (eq_trans L _). f_equal. unfold Nf. cbn [andb]. destruct (i =? n)%Z; [apply flat_map_single|apply flat_map_nil].
Qed.

Definition nth_sep (i : Z) : bytes := if (i =? n)%Z then [cNewline] else [].

Lemma nth_comma i : nth_step n (NT i true) cComma = (NT (i + 1) true, nth_sep i).
Proof.
  unfold NT, nth_step, nth_sep. cbn -[Z.eqb Z.ltb Z.add].
  destruct (i =? n)%Z eqn:E.
  - apply Z.eqb_eq in E. subst i. now replace (n <? n + 1)%Z with true by lia.
  - now replace (n <? i + 1)%Z with (n <? i)%Z by lia.
Qed.

Lemma nth_close i : nth_step n (NT i true) cRBracket =
  (N0, if (i =? n)%Z then [cNewline] else if (i <? n)%Z then null_line else []).
Proof.
  unfold NT, nth_step. cbn -[Z.eqb Z.ltb Z.add null_line]. unfold N0.
  replace (n <? i)%Z with (negb (i =? n) && negb (i <? n))%Z by lia.
  destruct (i =? n)%Z, (i <? n)%Z; reflexivity.
Qed.

Lemma nth_total l : l <> [] -> forall i,
  elems (fun i j => if (i =? n)%Z then compact j else []) nth_sep i l ++
  (let k := (i + Z.of_nat (List.length l) - 1)%Z in
   if (k =? n)%Z then [cNewline] else if (k <? n)%Z then null_line else []) =
  if (i <=? n)%Z then compact (nth (Z.to_nat (n - i)) l JNull) ++ [cNewline] else [].
Proof.
  induction l as [|x l IH]; intros Hne i; [congruence|]. destruct l as [|y l].
  - cbn [elems List.length]. cbv zeta. replace (i + Z.of_nat 1 - 1)%Z with i by lia.
    destruct (i =? n)%Z eqn:E.
    + apply Z.eqb_eq in E. subst i. replace (n <=? n)%Z with true by lia. rewrite Z.sub_diag. reflexivity.
    + destruct (i <? n)%Z eqn:E2.
      * replace (i <=? n)%Z with true by lia.
        replace (Z.to_nat (n - i)) with (Datatypes.S (Z.to_nat (n - i - 1))) by lia. cbn [nth].
        destruct (Z.to_nat (n - i - 1)); reflexivity.
      * replace (i <=? n)%Z with false by lia. reflexivity.
  - specialize (IH ltac:(discriminate) (i + 1)%Z). cbv zeta in IH.
    replace (i + 1 + Z.of_nat (List.length (y :: l)) - 1)%Z with (i + Z.of_nat (List.length (x :: y :: l)) - 1)%Z in IH
      by (cbn [List.length]; lia).
    cbv zeta.
    change (elems (fun i j => if (i =? n)%Z then compact j else []) nth_sep i (x :: y :: l)) with
      ((if (i =? n)%Z then compact x else []) ++ nth_sep i ++
       elems (fun i j => if (i =? n)%Z then compact j else []) nth_sep (i + 1) (y :: l)).
    rewrite <- !app_assoc, IH. unfold nth_sep.
    destruct (i =? n)%Z eqn:E.
    + apply Z.eqb_eq in E. subst i. replace (n + 1 <=? n)%Z with false by lia. replace (n <=? n)%Z with true by lia.
      rewrite Z.sub_diag. cbn [Z.to_nat nth]. now rewrite !app_nil_r.
    + cbn [app]. replace (i + 1 <=? n)%Z with (i <=? n)%Z by lia. destruct (i <=? n)%Z eqn:E2; [|reflexivity].
      replace (Z.to_nat (n - i)) with (Datatypes.S (Z.to_nat (n - (i + 1)))) by lia. reflexivity.
Qed.

Lemma nth_top j t : wf_json j = true -> is_container j = true -> spell (tokens j) t ->
  loop (nth_step n) N0 t = (N0, compact (nth_or_null n j) ++ [cNewline]).
Proof.
  intros Hw Hc Ht. destruct j as [| | |l|b|l|l]; try discriminate Hc; clear Hc; cbn [tokens wf_json nth_or_null] in *.
  - apply spell_cons_inv in Ht. destruct Ht as (w & t' & Hww & Ht & ->).
    apply spell_app_inv in Ht. destruct Ht as (t1 & t2 & -> & H1 & H2).
    apply spell_cons_inv in H2. destruct H2 as (w2 & t3 & Hw2 & H3 & ->). apply spell_nil_inv in H3. subst t3.
    rewrite app_nil_r.
    assert (E0 : (n <? 0)%Z = false) by lia.
    assert (L0 : loop (nth_step n) N0 [cLBracket] = (NT 0 false, [])) by (unfold NT; rewrite E0; reflexivity).
    assert (L1 : loop (nth_step n) (NT 0 false) w = (NT 0 false, [])) by (apply nth_ws; [reflexivity|exact Hww]).
    assert (L4 : loop (nth_step n) N0 w2 = (N0, [])) by (apply nth_ws; [reflexivity|exact Hw2]).
    destruct l as [|x l].
    + cbn [map intercalate] in H1. apply spell_nil_inv in H1. subst t1.
      assert (L3 : loop (nth_step n) (NT 0 false) [cRBracket] = (N0, null_line)).
      { cbn [loop]. unfold NT, nth_step, N0. cbn -[Z.eqb Z.ltb null_line]. rewrite E0.
        replace (0 <? n)%Z with (negb (0 =? n)%Z) by lia. destruct (0 =? n)%Z; reflexivity. }
      pose proof (loop_app_eq _ _ _ _ _ _ _ _ L0 (loop_app_eq _ _ _ _ _ _ _ _ L1 (loop_app_eq _ _ _ _ _ _ _ _ L3 L4))) as L.
      refine (eq_trans L _). f_equal. destruct (Z.to_nat n); reflexivity.
    + assert (L2 : loop (nth_step n) (NT 0 false) t1 =
        (NT (0 + Z.of_nat (List.length (x :: l)) - 1) true,
         elems (fun i j => if (i =? n)%Z then compact j else []) nth_sep 0 (x :: l))).
      { pose proof Hw as Hwx. cbn [forallb] in Hwx. apply andb_true_iff in Hwx. destruct Hwx as [Hx _].
        refine (eq_trans _ (elements_loop nth_st (nth_step n) (fun i => NT i true) (fun i => NT i true)
          (fun i j => if (i =? n)%Z then compact j else []) nth_sep
          (fun i w0 Hw0 => nth_ws (NT i true) w0 eq_refl Hw0) nth_elem nth_comma
          (x :: l) ltac:(discriminate) 0%Z t1 Hw H1)).
        destruct (spell_list_first x l t1 Hx H1) as (c & r & -> & Hc). cbn [loop]. now rewrite (nth_first c 0 false Hc). }
      set (k := (0 + Z.of_nat (List.length (x :: l)) - 1)%Z) in *.
      assert (L3 : loop (nth_step n) (NT k true) [cRBracket] =
        (N0, if (k =? n)%Z then [cNewline] else if (k <? n)%Z then null_line else [])).
      { cbn [loop]. rewrite nth_close. now rewrite app_nil_r. }
      pose proof (loop_app_eq _ _ _ _ _ _ _ _ L0 (loop_app_eq _ _ _ _ _ _ _ _ L1 (loop_app_eq _ _ _ _ _ _ _ _ L2
          (loop_app_eq _ _ _ _ _ _ _ _ L3 L4)))) as L.
      refine (eq_trans L _). f_equal. cbn [app]. rewrite app_nil_r.
      pose proof (nth_total (x :: l) ltac:(discriminate) 0%Z) as T. cbv zeta in T. fold k in T. rewrite T.
      replace (0 <=? n)%Z with true by lia. now rewrite Z.sub_0_r.
  - apply spell_cons_inv in Ht. destruct Ht as (w & t' & Hww & Ht & ->).
    apply spell_app_inv in Ht. destruct Ht as (t1 & t2 & -> & H1 & H2).
    apply spell_cons_inv in H2. destruct H2 as (w2 & t3 & Hw2 & H3 & ->). apply spell_nil_inv in H3. subst t3.
    rewrite app_nil_r.
    assert (L0 : loop (nth_step n) N0 [cLBrace] = (NI false 0 true 1, null_line)) by reflexivity.
    assert (L1 : loop (nth_step n) (NI false 0 true 1) w = (NI false 0 true 1, [])) by (apply nth_ws; [reflexivity|exact Hww]).
    assert (L3 : loop (nth_step n) (NI false 0 true 1) [cRBrace] = (N0, [])) by reflexivity.
    assert (L4 : loop (nth_step n) N0 w2 = (N0, [])) by (apply nth_ws; [reflexivity|exact Hw2]).
    exact (loop_app_eq _ _ _ _ _ _ _ _ L0 (loop_app_eq _ _ _ _ _ _ _ _ L1
        (loop_app_eq _ _ _ _ _ _ _ _ (nth_obj_body 0 true l t1 Hw H1) (loop_app_eq _ _ _ _ _ _ _ _ L3 L4)))).
Qed.

Lemma nth_stream js t : spells js t -> forallb is_container js = true ->
  loop (nth_step n) N0 t = (N0, lines (map (nth_or_null n) js)).
Proof.
  induction 1 as [|j t Hw Ht|j t js s Hw Ht He Hs IH]; cbn [forallb]; intros Hc.
  - reflexivity.
  - rewrite andb_true_r in Hc. cbn [map]. rewrite line1. now apply nth_top.
  - apply andb_true_iff in Hc. destruct Hc as [Hc1 Hc2]. cbn [map].
    exact (loop_app_eq _ _ _ _ _ _ _ _ (nth_top j t Hw Hc1 Ht) (IH Hc2)).
Qed.

Lemma nth_text js t : json_text js t -> forallb is_container js = true ->
  text (process (nth_proc n) (init (nth_proc n)) t true) = lines (map (nth_or_null n) js).
Proof.
  intros (w & s & Hw & Hs & ->) Hc.
  assert (L0 : loop (nth_step n) N0 w = (N0, [])) by (apply nth_ws; [reflexivity|exact Hw]).
  pose proof (loop_app_eq _ _ _ _ _ _ _ _ L0 (nth_stream js s Hs Hc)) as L1.
  cbn [process nth_proc loop_proc init].
  match goal with |- text (let '(_, _) := ?x in _) = _ => replace x with (N0, lines (map (nth_or_null n) js)) by (symmetry; exact L1) end.
  apply single_text.
Qed.
End Nth.

Lemma run_nth n js items : (0 <= n)%Z -> forallb is_container js = true -> json_text js (given items) ->
  concat (run (op_proc (OpGetArrayNthValue n)) items) = lines (map (nth_or_null n) js).
Proof. intros Hn Hc Hj. rewrite op_run_once. exact (nth_text n Hn js _ Hj Hc). Qed.

(** Exploding what was imploded gives the values back. *)
Lemma run_explode_implode js items : json_text js (given items) ->
  concat (run (op_proc OpExplodeArray) (map Some (run (op_proc OpImplodeArray) items))) = lines js.
Proof.
  intros Hj. rewrite (run_explode [JArr js]); [cbn [flat_map elements]; now rewrite app_nil_r|].
  rewrite given_some, (run_implode js items Hj). apply lines_json_text. cbn [forallb wf_json].
  now rewrite (json_text_wf _ _ Hj).
Qed.
(** And imploding what was exploded gives an array back. *)
Lemma run_implode_explode l items : json_text [JArr l] (given items) ->
  concat (run (op_proc OpImplodeArray) (map Some (run (op_proc OpExplodeArray) items))) = lines [JArr l].
Proof.
  intros Hj. apply run_implode. rewrite given_some, (run_explode [JArr l] items Hj). cbn [flat_map elements].
  rewrite app_nil_r. apply lines_json_text. pose proof (json_text_wf _ _ Hj) as H. cbn in H. now rewrite andb_true_r in H.
Qed.
