(** Compactify on arbitrary texts, prettify, chunk_values (C38). *)
From Coq Require Import String NArith ZArith List Bool Lia.
From Verif Require Import JsonModel JsonSpec JsonChunkProofs JsonProofs.
Import ListNotations.
Open Scope N_scope.

(** ** Compactify, any text *)
Lemma comp_step_idem s c s' o : comp_step s c = (s', o) -> loop comp_step s o = (s', o).
Proof.
  enough (G : forall F, F = comp_step -> comp_step s c = (s', o) -> loop F s o = (s', o)) by auto.
  intros F EF. destruct s as [d iv ins esc]. unfold comp_step.
  destruct ins.
  - destruct esc.
    + intros E; apply pair_equal_spec in E; destruct E as [<- <-]; subst F. reflexivity.
    + destruct (c =? cQuote) eqn:Eq.
      * apply N.eqb_eq in Eq; subst c. unfold comp_nl. destruct ((d =? 0)%Z && iv) eqn:Ed.
        -- intros E; apply pair_equal_spec in E; destruct E as [<- <-]; subst F.
           cbn -[Z.eqb comp_nl]. unfold comp_nl. rewrite Ed. cbn -[Z.eqb comp_nl].
           unfold comp_nl. rewrite andb_false_r. reflexivity.
        -- intros E; apply pair_equal_spec in E; destruct E as [<- <-]; subst F.
           cbn -[Z.eqb comp_nl]. unfold comp_nl. rewrite Ed. reflexivity.
      * destruct (c =? cBackslash) eqn:Eb; intros E; apply pair_equal_spec in E; destruct E as [<- <-]; subst F;
          cbn [loop comp_step]; rewrite Eq, Eb; reflexivity.
  - destruct (isspace c) eqn:Es.
    + unfold comp_nl. destruct ((d =? 0)%Z && iv) eqn:Ed; intros E; apply pair_equal_spec in E; destruct E as [<- <-]; subst F.
      * cbn -[Z.eqb comp_nl]. unfold comp_nl. rewrite Ed. reflexivity.
      * reflexivity.
    + destruct (c =? cQuote) eqn:Eq.
      { intros E; apply pair_equal_spec in E; destruct E as [<- <-]; subst F. cbn [loop comp_step]. rewrite Es, Eq. reflexivity. }
      destruct ((c =? cLBracket) || (c =? cLBrace)) eqn:Eo.
      { unfold comp_nl. destruct ((d =? 0)%Z && iv) eqn:Ed; intros E; apply pair_equal_spec in E; destruct E as [<- <-]; subst F.
        - cbn [app]. rewrite loop_cons.
          assert (E1 : comp_step (mkComp d iv false esc) cNewline = (mkComp d false false esc, [cNewline])).
          { cbn -[Z.eqb comp_nl]. unfold comp_nl. rewrite Ed. reflexivity. }
          rewrite E1. cbn [fst snd loop comp_step]. rewrite Es, Eq, Eo. unfold comp_nl. rewrite andb_false_r. reflexivity.
        - cbn [loop comp_step app]. rewrite Es, Eq, Eo. unfold comp_nl. rewrite Ed. reflexivity. }
      destruct ((c =? cRBracket) || (c =? cRBrace)) eqn:Ec.
      { unfold comp_nl. destruct ((d - 1 =? 0)%Z && iv) eqn:Ed; intros E; apply pair_equal_spec in E; destruct E as [<- <-]; subst F.
        - rewrite loop_cons.
          assert (E1 : comp_step (mkComp d iv false esc) c = (mkComp (d - 1) false false esc, [c; cNewline])).
          { unfold comp_step. rewrite Es, Eq, Eo, Ec. unfold comp_nl. rewrite Ed. reflexivity. }
          rewrite E1. cbn -[Z.eqb Z.sub]. unfold comp_nl. rewrite andb_false_r.
          (* the newline was already printed by the bracket *)
          reflexivity.
        - cbn [loop comp_step]. rewrite Es, Eq, Eo, Ec. unfold comp_nl. rewrite Ed. reflexivity. }
      intros E; apply pair_equal_spec in E; destruct E as [<- <-]; subst F. cbn [loop comp_step]. rewrite Es, Eq, Eo, Ec. reflexivity.
Qed.

Lemma comp_loop_idem : forall t s s' o, loop comp_step s t = (s', o) -> loop comp_step s o = (s', o).
Proof.
  induction t as [|c t IH]; intros s s' o E; cbn [loop] in E.
  - apply pair_equal_spec in E; destruct E as [<- <-]. reflexivity.
  - destruct (comp_step s c) as [s1 o1] eqn:E1. destruct (loop comp_step s1 t) as [s2 o2] eqn:E2.
    apply pair_equal_spec in E; destruct E as [<- <-].
    eapply loop_app_eq; [exact (comp_step_idem _ _ _ _ E1)|exact (IH _ _ _ E2)].
Qed.

Lemma scan_app q a b : scan q (a ++ b) = scan (scan q a) b.
Proof. unfold scan. apply fold_left_app. Qed.
Lemma sig_app : forall a q b, significant_from q (a ++ b) = significant_from q a ++ significant_from (scan q a) b.
Proof.
  induction a as [|c a IH]; intros q b; cbn [app significant_from]; [reflexivity|].
  rewrite IH. change (scan q (c :: a)) with (scan (scan1 q c) a). now rewrite app_assoc.
Qed.

(** What a reformatting step must satisfy to keep the significant characters. *)
Definition keeps {S} (step : S -> byte -> S * bytes) (q : S -> bool * bool) (Inv : S -> Prop) : Prop :=
  forall s c, Inv s -> let r := step s c in
  Inv (fst r) /\ q (fst r) = scan1 (q s) c /\ scan (q s) (snd r) = scan1 (q s) c /\
  significant_from (q s) (snd r) = significant_from (q s) [c].

Lemma keeps_loop {S} (step : S -> byte -> S * bytes) q Inv : keeps step q Inv -> forall t s, Inv s ->
  let r := loop step s t in
  Inv (fst r) /\ q (fst r) = scan (q s) t /\ scan (q s) (snd r) = scan (q s) t /\
  significant_from (q s) (snd r) = significant_from (q s) t.
Proof.
  intros K. induction t as [|c t IH]; intros s Hs; cbv zeta.
  - cbn. auto.
  - rewrite loop_cons. cbn [fst snd]. destruct (K s c Hs) as (K1 & K2 & K3 & K4).
    destruct (IH (fst (step s c)) K1) as (I1 & I2 & I3 & I4).
    change (scan (q s) (c :: t)) with (scan (scan1 (q s) c) t). rewrite K2 in *.
    split; [exact I1|]. split; [exact I2|]. split.
    + rewrite scan_app, K3. exact I3.
    + rewrite sig_app, K3, K4, I4. cbn [significant_from]. now rewrite app_nil_r.
Qed.

Lemma space_not_quote c : isspace c = true -> (c =? cQuote) = false.
Proof.
  unfold isspace, cQuote. rewrite orb_true_iff, andb_true_iff, N.eqb_eq, !N.leb_le, N.eqb_neq. lia.
Qed.

Definition comp_q (s : comp_st) := (k_in_string s, k_in_escape s).
Definition comp_inv (s : comp_st) := k_in_string s = false -> k_in_escape s = false.

Lemma comp_keeps : keeps comp_step comp_q comp_inv.
Proof.
  intros [d iv ins esc] c Hs. cbv zeta. unfold comp_step, comp_q, comp_inv in *. cbn [k_in_string k_in_escape] in *.
  assert (Nq : (cNewline =? cQuote) = false) by reflexivity.
  destruct ins.
  - destruct esc.
    + cbn. auto.
    + destruct (c =? cQuote) eqn:Eq.
      * apply N.eqb_eq in Eq. subst c. unfold comp_nl. destruct ((d =? 0)%Z && iv); cbn; auto.
      * destruct (c =? cBackslash) eqn:Eb; cbn; rewrite ?Eq, ?Eb; repeat split; auto.
  - rewrite (Hs eq_refl).
    destruct (isspace c) eqn:Es.
    + pose proof (space_not_quote c Es) as Eq. unfold comp_nl.
      destruct ((d =? 0)%Z && iv); cbn; rewrite ?Eq, ?Es; auto.
    + destruct (c =? cQuote) eqn:Eq.
      { cbn. rewrite Eq, Es. repeat split; auto. }
      destruct ((c =? cLBracket) || (c =? cLBrace)) eqn:Eo.
      { unfold comp_nl. destruct ((d =? 0)%Z && iv); cbn; rewrite ?Eq, ?Es; auto. }
      destruct ((c =? cRBracket) || (c =? cRBrace)) eqn:Ec.
      { unfold comp_nl. destruct ((d - 1 =? 0)%Z && iv); cbn; rewrite ?Eq, ?Es; auto. }
      cbn; rewrite ?Eq, ?Es; auto.
Qed.

Lemma comp_significant t : strings_closed t ->
  significant (text (comp_process C0 t true)) = significant t /\
  strings_closed (text (comp_process C0 t true)).
Proof.
  intros Hc. unfold comp_process. pose proof (keeps_loop comp_step comp_q comp_inv comp_keeps t C0) as K.
  specialize (K (fun _ => eq_refl)). cbv zeta in K.
  destruct (loop comp_step C0 t) as [s o]. cbn [fst snd] in K. destruct K as (_ & K2 & K3 & K4).
  change (comp_q C0) with (false, false) in *.
  rewrite single_text. unfold strings_closed, significant in *. destruct (true && k_in_value s).
  - rewrite sig_app, scan_app, K3, K4. destruct (scan (false, false) t) as [a b]. cbn [fst] in Hc. subst a.
    cbn. now rewrite app_nil_r.
  - rewrite K3, K4. auto.
Qed.

Lemma comp_idem t : strings_closed t ->
  text (comp_process C0 (text (comp_process C0 t true)) true) = text (comp_process C0 t true).
Proof.
  intros Hc. unfold comp_process at 2 3. pose proof (keeps_loop comp_step comp_q comp_inv comp_keeps t C0) as K.
  specialize (K (fun _ => eq_refl)). cbv zeta in K.
  destruct (loop comp_step C0 t) as [s o] eqn:E. cbn [fst snd] in K. destruct K as (K1 & K2 & K3 & K4).
  change (comp_q C0) with (false, false) in *.
  rewrite !single_text. pose proof (comp_loop_idem _ _ _ _ E) as E2.
  unfold strings_closed in Hc. rewrite <- K2 in Hc. unfold comp_q in Hc. cbn [fst] in Hc.
  destruct s as [d iv ins esc]. cbn [k_in_string] in Hc. subst ins. cbn [k_in_value andb].
  unfold comp_process. destruct iv.
  - destruct (d =? 0)%Z eqn:Ed.
    + rewrite (loop_app_eq comp_step C0 o [cNewline] _ _ (mkComp d false false esc) [cNewline] E2).
      * rewrite single_text. reflexivity.
      * cbn -[Z.eqb]. unfold comp_nl. rewrite Ed. reflexivity.
    + rewrite (loop_app_eq comp_step C0 o [cNewline] _ _ (mkComp d true false esc) [] E2).
      * rewrite single_text. cbn. rewrite app_nil_r. reflexivity.
      * cbn -[Z.eqb]. unfold comp_nl. rewrite Ed. reflexivity.
  - rewrite E2, single_text. reflexivity.
Qed.

(** ** Chunk values *)
Lemma chunk_values_text t : text (process chunk_values_proc (init chunk_values_proc) t true) ++
   fst (chunk_loop [] (text (comp_process C0 t true))) = text (comp_process C0 t true).
Proof.
  change (process chunk_values_proc (init chunk_values_proc) t true) with (chunk_process (C0, []) t true).
  rewrite chunk_process_eq. cbv zeta. cbn [fst snd]. unfold text at 1. cbn [r_chunks].
  generalize (text (comp_process C0 t true)). intros o.
  assert (G : forall o buf, concat (snd (chunk_loop buf o)) ++ fst (chunk_loop buf o) = buf ++ o).
  { clear. induction o as [|c o IH]; intros buf; cbn [chunk_loop].
    - cbn. now rewrite app_nil_r.
    - destruct (c =? cNewline).
      + specialize (IH []). destruct (chunk_loop [] o) as [b l]. cbn [fst snd concat] in *.
        rewrite <- app_assoc, IH. cbn. now rewrite <- app_assoc.
      + rewrite IH, <- app_assoc. reflexivity. }
  apply (G o []).
Qed.

Lemma chunk_loop_line : forall l buf rest, ~ In cNewline l ->
  chunk_loop buf (l ++ [cNewline] ++ rest) =
  (fst (chunk_loop [] rest), (buf ++ l ++ [cNewline]) :: snd (chunk_loop [] rest)).
Proof.
  induction l as [|c l IH]; intros buf rest H; cbn [app chunk_loop].
  - cbn. destruct (chunk_loop [] rest). reflexivity.
  - assert (Ec : (c =? cNewline) = false) by (apply N.eqb_neq; intros ->; apply H; now left).
    rewrite Ec. change (l ++ cNewline :: rest) with (l ++ [cNewline] ++ rest).
    rewrite IH by (intros Hi; apply H; now right). rewrite <- app_assoc. reflexivity.
Qed.

(** Compact spellings contain no newline. *)
Lemma body_no_newline : forall n b, (List.length b <= n)%nat -> body_ok b = true -> ~ In cNewline b.
Proof.
  induction n as [|n IH]; intros [|c b] Hn Hb Hin; cbn [List.length] in Hn; try lia; try (now destruct Hin).
  cbn [body_ok] in Hb. destruct (c =? cBackslash) eqn:Ec.
  - apply N.eqb_eq in Ec. subst c. destruct b as [|d b]; [discriminate|].
    apply andb_true_iff in Hb. destruct Hb as [Hd Hb]. apply N.leb_le in Hd.
    destruct Hin as [E|[E|Hin]]; [discriminate| |].
    + subst d. unfold cNewline in Hd. lia.
    + cbn [List.length] in Hn. apply (IH b); auto. lia.
  - rewrite !andb_true_iff in Hb. destruct Hb as [[Hd _] Hb]. apply N.leb_le in Hd.
    destruct Hin as [->|Hin]; [unfold cNewline in Hd; lia|]. apply (IH b); auto. lia.
Qed.

Lemma quoted_no_newline b : body_ok b = true -> ~ In cNewline (quoted b).
Proof.
  intros Hb. unfold quoted. intros [H|H]; [discriminate|]. apply in_app_or in H.
  destruct H as [H|[H|[]]]; [|discriminate]. exact (body_no_newline _ b (le_n _) Hb H).
Qed.

Lemma in_concat_intercalate (x : byte) (sep : list bytes) (ls : list (list bytes)) :
  In x (concat (intercalate sep ls)) -> In x (concat sep) \/ exists l, In l ls /\ In x (concat l).
Proof.
  induction ls as [|l ls IH]; [intros []|]. destruct ls as [|l2 ls].
  - cbn [intercalate]. intros H. right. exists l. split; [now left|exact H].
  - rewrite intercalate_cons by discriminate. rewrite !concat_app, !in_app_iff.
    intros [H|[H|H]]; [right; exists l; split; [now left|exact H]|now left|].
    destruct (IH H) as [H'|(l' & H1 & H2)]; [now left|]. right. exists l'. split; [now right|exact H2].
Qed.

Lemma compact_no_newline : forall j, wf_json j = true -> ~ In cNewline (compact j).
Proof.
  assert (Hat : forall j a, atom_text j = Some a -> wf_json j = true -> ~ In cNewline (compact j)).
  { intros j a Ha Hw. destruct (atom_text_ok j a Ha Hw) as (_ & Hc & Htk). unfold compact. rewrite Htk.
    cbn [concat]. rewrite app_nil_r. intros H. rewrite forallb_forall in Hc. specialize (Hc _ H). discriminate. }
  induction j as [| | |l|b|l IH|l IH] using json_ind2; intros Hw; try (eapply Hat; [reflexivity|exact Hw]).
  - unfold compact. cbn [tokens concat]. rewrite app_nil_r. now apply quoted_no_newline.
  - unfold compact. cbn [tokens concat wf_json] in *. rewrite concat_app. intros H.
    apply in_app_or in H. destruct H as [[H|[]]|H]; [discriminate|]. apply in_app_or in H.
    destruct H as [H|[H|[]]]; [|discriminate].
    apply in_concat_intercalate in H. destruct H as [[H|[]]|(k & Hk & H)]; [discriminate|].
    apply in_map_iff in Hk. destruct Hk as (x & <- & Hx). rewrite Forall_forall in IH.
    rewrite forallb_forall in Hw. exact (IH x Hx (Hw x Hx) H).
  - unfold compact. cbn [tokens concat wf_json] in *. rewrite concat_app. intros H.
    apply in_app_or in H. destruct H as [[H|[]]|H]; [discriminate|]. apply in_app_or in H.
    destruct H as [H|[H|[]]]; [|discriminate].
    apply in_concat_intercalate in H. destruct H as [[H|[]]|(k & Hk & H)]; [discriminate|].
    apply in_map_iff in Hk. destruct Hk as (x & <- & Hx). rewrite Forall_forall in IH.
    rewrite forallb_forall in Hw. specialize (Hw x Hx). apply andb_true_iff in Hw. destruct Hw as [Hb Hv].
    cbn [concat] in H. apply in_app_or in H. destruct H as [H|H]; [exact (quoted_no_newline _ Hb H)|].
    apply in_app_or in H. destruct H as [[H|[]]|H]; [discriminate|]. exact (IH x Hx Hv H).
Qed.

Lemma chunk_loop_lines js : forallb wf_json js = true ->
  chunk_loop [] (lines js) = ([], map (fun j => compact j ++ [cNewline]) js).
Proof.
  induction js as [|j js IH]; intros Hw; [reflexivity|]. cbn [forallb] in Hw. apply andb_true_iff in Hw.
  destruct Hw as [Hj Hw]. unfold lines in *. cbn [flat_map map]. rewrite <- app_assoc.
  rewrite chunk_loop_line by (now apply compact_no_newline). rewrite IH by exact Hw. reflexivity.
Qed.

Lemma spells_wf js t : spells js t -> forallb wf_json js = true.
Proof. induction 1; cbn; rewrite ?andb_true_r; auto. now rewrite H, IHspells. Qed.

Lemma chunk_values_once js t : json_text js t ->
  r_chunks (process chunk_values_proc (init chunk_values_proc) t true) =
  map (fun j => compact j ++ [cNewline]) js.
Proof.
  intros Hj. change (process chunk_values_proc (init chunk_values_proc) t true) with (chunk_process (C0, []) t true).
  rewrite chunk_process_eq. cbv zeta. cbn [fst snd r_chunks]. rewrite (comp_text js t true Hj eq_refl).
  rewrite chunk_loop_lines; [reflexivity|]. destruct Hj as (w & s & _ & Hs & _). exact (spells_wf _ _ Hs).
Qed.

Lemma chunk_values_run_from : forall items st,
  run_from chunk_values_proc st items = r_chunks (process chunk_values_proc st (given items) true).
Proof.
  induction items as [|[c|] items IH]; intros st; cbn [run_from given map concat].
  - reflexivity.
  - fold (given items). destruct (chunk_values_splits_strong st c (given items) true) as (H0 & H1 & _).
    rewrite H0, H1, IH. reflexivity.
  - apply IH.
Qed.

Lemma chunk_values_run js items : json_text js (given items) ->
  run (op_proc OpChunkValues) items = map (fun j => compact j ++ [cNewline]) js.
Proof. intros H. unfold run. cbn [op_proc]. rewrite chunk_values_run_from. now apply chunk_values_once. Qed.

(** ** Prettify *)
Section Pretty.
Variable ind : bytes.
Definition PS (d : Z) (hc nd : bool) : pretty_st := mkPretty d hc false false nd.

Lemma ofS_nz d : (Z.of_nat (S d) =? 0)%Z = false.
Proof. apply Z.eqb_neq. lia. Qed.
Lemma z_repeat_nat d : z_repeat (Z.of_nat d) ind = concat (repeat ind d).
Proof. unfold z_repeat. now rewrite Nat2Z.id. Qed.
Lemma nl_if_nat b d : nl_if b (Z.of_nat d) ind = if b then newline_indent ind d else [].
Proof. unfold nl_if, newline_indent. now rewrite z_repeat_nat. Qed.

(** whitespace: deep it has no effect, at the top it requests a newline *)
Lemma pretty_ws d hc nd w : forallb is_ws w = true ->
  loop (pretty_step ind) (PS d hc nd) w =
  (PS d hc (if (d =? 0)%Z && negb (match w with [] => true | _ => false end) then true else nd), []).
Proof.
  revert nd. induction w as [|c w IH]; intros nd Hw; cbn [loop forallb] in *.
  - now rewrite andb_false_r.
  - apply andb_true_iff in Hw. destruct Hw as [Hc Hw].
    unfold PS at 1. cbn [pretty_step]. rewrite (is_ws_isspace _ Hc).
    fold (PS d hc (if (d =? 0)%Z then true else nd)). rewrite (IH _ Hw). cbn [app negb andb]. rewrite andb_true_r.
    destruct (d =? 0)%Z; [|reflexivity]. destruct w; reflexivity.
Qed.

Lemma pretty_ws_some d hc nd w : forallb is_ws w = true -> exists nd', 
  loop (pretty_step ind) (PS d hc nd) w = (PS d hc nd', []) /\ (nd = true -> nd' = true).
Proof.
  intros H. eexists. split; [apply pretty_ws; exact H|]. intros ->. now destruct (_ && _).
Qed.

Lemma pretty_str d hc nd b : body_ok b = true ->
  loop (pretty_step ind) (PS (Z.of_nat d) hc nd) (quoted b) =
  (PS (Z.of_nat d) true (Z.of_nat d =? 0)%Z, (if nd then newline_indent ind d else []) ++ quoted b).
Proof.
  intros Hb. unfold quoted, PS. rewrite loop_cons. cbn -[loop newline_indent nl_if Z.of_nat].
  rewrite nl_if_nat.
  set (D := Z.of_nat d).
  rewrite (loop_string (pretty_step ind) (mkPretty D true true false false) (mkPretty D true true true false)
     (mkPretty D true false false (D =? 0)%Z) (fun c => [c]) [cQuote]); auto.
  - cbn [fst snd]. rewrite flat_map_single, <- app_assoc. reflexivity.
  - intros c H1 H2. apply N.eqb_neq in H1, H2. cbn [pretty_step]. rewrite H1, H2. reflexivity.
  - cbn -[Z.eqb]. now destruct (D =? 0)%Z.
Qed.

Lemma pretty_atom d hc nd a : a <> [] -> forallb atom_char a = true ->
  loop (pretty_step ind) (PS (Z.of_nat d) hc nd) a =
  (PS (Z.of_nat d) true false, (if nd then newline_indent ind d else []) ++ a).
Proof.
  destruct a as [|c a]; [congruence|]. intros _ H. cbn [forallb] in H. apply andb_true_iff in H. destruct H as [Hc Ha].
  assert (E : forall hc nd c, atom_char c = true ->
     pretty_step ind (PS (Z.of_nat d) hc nd) c =
     (PS (Z.of_nat d) true false, (if nd then newline_indent ind d else []) ++ [c])).
  { clear. intros hc nd c Hc. apply atom_char_spec in Hc.
    destruct Hc as (E1 & E2 & E3 & E4 & E5 & E6 & E7 & E8). unfold PS. cbn [pretty_step].
    rewrite E1, E2, E3, E4, E5, E6, E7, E8, nl_if_nat. reflexivity. }
  rewrite loop_cons, (E _ _ _ Hc). cbn [fst snd].
  rewrite (loop_const (pretty_step ind) (PS (Z.of_nat d) true false) (fun c => [c]) atom_char).
  - cbn [fst snd]. rewrite flat_map_single, <- app_assoc. reflexivity.
  - intros c0 Hc0. now rewrite (E _ _ _ Hc0).
  - exact Ha.
Qed.

Definition Pr (j : json) : Prop := forall d hc nd t, wf_json j = true -> spell (tokens j) t ->
  exists nd', loop (pretty_step ind) (PS (Z.of_nat d) hc nd) t =
    (PS (Z.of_nat d) true nd', (if nd then newline_indent ind d else []) ++ pretty ind d j) /\
    (d = O -> ends_ws t -> nd' = true).

(** A list of items at depth [S d] >= 1, each item printed as [snd]; the comma
    requests the newline of the next one. *)
Lemma pretty_list d (its : list (list bytes * bytes)) : forall hc t, its <> [] ->
  Forall (fun it => forall hc t, spell (fst it) t ->
     exists nd', loop (pretty_step ind) (PS (Z.of_nat (S d)) hc true) t =
       (PS (Z.of_nat (S d)) true nd', snd it)) its ->
  spell (intercalate [[cComma]] (map fst its)) t ->
  exists nd', loop (pretty_step ind) (PS (Z.of_nat (S d)) hc true) t =
    (PS (Z.of_nat (S d)) true nd', intercalate [cComma] (map snd its)).
Proof.
  induction its as [|it its IH]; intros hc t Hne Hits Ht; [congruence|].
  inversion Hits as [|? ? Hit Hits']; subst. destruct its as [|it2 its].
  - cbn [map intercalate] in *. apply Hit. exact Ht.
  - cbn [map] in *. rewrite !intercalate_cons in * by discriminate.
    apply spell_app_inv in Ht. destruct Ht as (t1 & t2 & -> & H1 & H2).
    cbn [app] in H2. apply spell_cons_inv in H2. destruct H2 as (w & t3 & Hw & H3 & ->).
    destruct (Hit hc t1 H1) as (nd1 & E1).
    destruct (IH true t3 ltac:(discriminate) Hits' H3) as (nd3 & E3).
    exists nd3. eapply loop_app_eq; [exact E1|]. cbn [app].
    rewrite loop_cons. cbn -[loop Z.of_nat intercalate].
    change (mkPretty (Z.of_nat (S d)) true false false true) with (PS (Z.of_nat (S d)) true true).
    assert (Ew : loop (pretty_step ind) (PS (Z.of_nat (S d)) true true) w = (PS (Z.of_nat (S d)) true true, [])).
    { rewrite pretty_ws by exact Hw. rewrite (ofS_nz d). reflexivity. }
    rewrite (loop_app_eq _ _ w t3 _ _ _ _ Ew E3).
    reflexivity.
Qed.

Lemma pretty_open d hc nd c : c = cLBracket \/ c = cLBrace ->
  pretty_step ind (PS (Z.of_nat d) hc nd) c =
  (PS (Z.of_nat (S d)) false true, (if nd then newline_indent ind d else []) ++ [c]).
Proof.
  intros Hc. replace (Z.of_nat (S d)) with (Z.of_nat d + 1)%Z by lia.
  destruct Hc as [-> | ->]; unfold PS; cbn -[Z.of_nat newline_indent nl_if Z.add]; rewrite nl_if_nat; reflexivity.
Qed.
Lemma pretty_close d hc nd c : c = cRBracket \/ c = cRBrace ->
  pretty_step ind (PS (Z.of_nat (S d)) hc nd) c =
  (PS (Z.of_nat d) true true, (if hc then newline_indent ind d else []) ++ [c]).
Proof.
  intros Hc. replace (Z.of_nat d) with (Z.of_nat (S d) - 1)%Z by lia.
  destruct Hc as [-> | ->]; unfold PS; cbn -[Z.of_nat newline_indent nl_if Z.sub];
    replace (Z.of_nat (S d) - 1)%Z with (Z.of_nat d) by lia; rewrite (nl_if_nat true); reflexivity.
Qed.

(** A container, given its non-empty list of items. *)
Lemma pretty_container d hc nd op cl (its : list (list bytes * bytes)) t :
  op = cLBracket \/ op = cLBrace -> cl = cRBracket \/ cl = cRBrace ->
  Forall (fun it => forall hc t, spell (fst it) t ->
     exists nd', loop (pretty_step ind) (PS (Z.of_nat (S d)) hc true) t =
       (PS (Z.of_nat (S d)) true nd', snd it)) its ->
  spell ([op] :: intercalate [[cComma]] (map fst its) ++ [[cl]]) t ->
  exists nd', loop (pretty_step ind) (PS (Z.of_nat d) hc nd) t =
    (PS (Z.of_nat d) true nd', (if nd then newline_indent ind d else []) ++
       match its with [] => [op; cl]
       | _ => op :: intercalate [cComma] (map snd its) ++ newline_indent ind d ++ [cl] end) /\
    (d = O -> ends_ws t -> nd' = true).
Proof.
  intros Hop Hcl Hits Ht.
  apply spell_cons_inv in Ht. destruct Ht as (w & t' & Hw & Ht & ->).
  apply spell_app_inv in Ht. destruct Ht as (t1 & t2 & -> & H1 & H2).
  apply spell_cons_inv in H2. destruct H2 as (w2 & t3 & Hw2 & H3 & ->). apply spell_nil_inv in H3. subst t3.
  rewrite app_nil_r. cbn [app]. rewrite loop_cons, (pretty_open d hc nd op Hop). cbn [fst snd].
  assert (Ew : loop (pretty_step ind) (PS (Z.of_nat (S d)) false true) w = (PS (Z.of_nat (S d)) false true, [])).
  { rewrite pretty_ws by exact Hw. rewrite (ofS_nz d). reflexivity. }
  destruct (pretty_ws_some (Z.of_nat d) true true w2 Hw2) as (ndw & Ew2 & Hnd).
  exists ndw. split; [|intros _ _; auto].
  destruct its as [|it its].
  - cbn in H1. apply spell_nil_inv in H1. subst t1. cbn [app].
    match goal with |- context [loop ?a ?b ?c] =>
      assert (X : loop a b c = (PS (Z.of_nat d) true ndw, [cl])); [|rewrite X] end.
    2: { cbn [fst snd app]. now rewrite <- app_assoc. }
    change [cl] with ([] ++ [cl]). eapply loop_app_eq; [exact Ew|].
    rewrite loop_cons, (pretty_close d false true cl Hcl). cbn [fst snd]. rewrite Ew2. reflexivity.
  - destruct (pretty_list d (it :: its) false t1 ltac:(discriminate) Hits H1) as (nd1 & E1).
    match goal with |- context [loop ?a ?b ?c] =>
      assert (X : loop a b c = (PS (Z.of_nat d) true ndw,
        [] ++ intercalate [cComma] (map snd (it :: its)) ++ newline_indent ind d ++ [cl])); [|rewrite X] end.
    2: { cbn [fst snd app]. rewrite <- app_assoc. reflexivity. }
    eapply loop_app_eq; [exact Ew|].
    eapply loop_app_eq; [exact E1|]. rewrite loop_cons, (pretty_close d true nd1 cl Hcl). cbn [fst snd].
      rewrite Ew2. cbn [fst snd]. now rewrite app_nil_r.
Qed.

Lemma pretty_json : forall j, Pr j.
Proof.
  assert (Hat : forall j a, atom_text j = Some a -> (forall d, pretty ind d j = compact j) -> Pr j).
  { intros j a Ha Hp d hc nd t Hw Ht. destruct (atom_text_ok j a Ha Hw) as (Hne & Hc & Htk).
    rewrite Hp. unfold compact. rewrite Htk in *. apply spell_cons_inv in Ht.
    destruct Ht as (w & t' & Hww & Ht' & ->). apply spell_nil_inv in Ht'; subst t'.
    cbn [concat]. rewrite !app_nil_r. eexists. split.
    - rewrite <- (app_nil_r ((if nd then _ else _) ++ a)).
      eapply loop_app_eq; [apply pretty_atom; assumption|apply pretty_ws; exact Hww].
    - intros -> (t' & c & E & Hws). cbn [Z.of_nat Z.eqb andb]. destruct w as [|c0 w]; [|reflexivity].
      exfalso. rewrite app_nil_r in E.
      assert (Hin : In c a) by (rewrite E; apply in_or_app; right; now left).
      rewrite forallb_forall in Hc. specialize (Hc c Hin). apply atom_char_spec in Hc.
      apply is_ws_isspace in Hws. destruct Hc. congruence. }
  induction j as [| | |l|b|l IH|l IH] using json_ind2; try (eapply Hat; reflexivity).
  - intros d hc nd t Hw Ht. cbn [tokens wf_json] in *. unfold pretty, compact. cbn [tokens].
    apply spell_cons_inv in Ht. destruct Ht as (w & t' & Hww & Ht' & ->). apply spell_nil_inv in Ht'; subst t'.
    cbn [concat]. rewrite !app_nil_r. eexists. split.
    + rewrite <- (app_nil_r ((if nd then _ else _) ++ quoted b)).
      eapply loop_app_eq; [apply pretty_str; assumption|apply pretty_ws; exact Hww].
    + intros -> _. cbn [Z.of_nat Z.eqb andb]. now destruct (negb _).
  - intros d hc nd t Hw Ht. cbn [tokens wf_json] in *.
    pose proof (pretty_container d hc nd cLBracket cRBracket
      (map (fun x => (tokens x, newline_indent ind (S d) ++ pretty ind (S d) x)) l) t (or_introl eq_refl) (or_introl eq_refl)) as C.
    rewrite !map_map in C. cbn [fst snd] in C.
    destruct C as (nd' & E & Hn).
    + rewrite Forall_map. rewrite Forall_forall in IH |- *. intros x Hx hc0 t0 Ht0. cbn [fst snd] in *.
      rewrite forallb_forall in Hw. destruct (IH x Hx (S d) hc0 true t0 (Hw x Hx) Ht0) as (n0 & E0 & _). eauto.
    + exact Ht.
    + exists nd'. split; [|exact Hn]. rewrite E. do 2 f_equal. destruct l; reflexivity.
  - intros d hc nd t Hw Ht. cbn [tokens wf_json] in *.
    pose proof (pretty_container d hc nd cLBrace cRBrace
      (map (fun kv => (quoted (fst kv) :: [cColon] :: tokens (snd kv),
          newline_indent ind (S d) ++ quoted (fst kv) ++ [cColon; cSpace] ++ pretty ind (S d) (snd kv))) l) t
      (or_intror eq_refl) (or_intror eq_refl)) as C.
    rewrite !map_map in C. cbn [fst snd] in C.
    destruct C as (nd' & E & Hn).
    + rewrite Forall_map. rewrite Forall_forall in IH |- *. intros x Hx hc0 t0 Ht0. cbn [fst snd] in *.
      rewrite forallb_forall in Hw. specialize (Hw x Hx). apply andb_true_iff in Hw. destruct Hw as [Hb Hv].
      apply spell_cons_inv in Ht0. destruct Ht0 as (w1 & t1 & Hw1 & Ht1 & ->).
      apply spell_cons_inv in Ht1. destruct Ht1 as (w2 & t2 & Hw2 & Ht2 & ->).
      destruct (IH x Hx (S d) true false t2 Hv Ht2) as (n0 & E0 & _). exists n0.
      assert (Ew1 : loop (pretty_step ind) (PS (Z.of_nat (S d)) true false) w1 = (PS (Z.of_nat (S d)) true false, [])).
      { rewrite pretty_ws by exact Hw1. rewrite (ofS_nz d). reflexivity. }
      assert (Ew2 : loop (pretty_step ind) (PS (Z.of_nat (S d)) true false) w2 = (PS (Z.of_nat (S d)) true false, [])).
      { rewrite pretty_ws by exact Hw2. rewrite (ofS_nz d). reflexivity. }
      pose proof (pretty_str (S d) hc0 true (fst x) Hb) as Es.
      rewrite (ofS_nz d) in Es.
      rewrite (app_assoc (newline_indent ind (S d))).
      eapply loop_app_eq; [exact Es|]. change ([cColon; cSpace] ++ pretty ind (S d) (snd x))
        with ([] ++ ([cColon; cSpace] ++ [] ++ pretty ind (S d) (snd x))).
      eapply loop_app_eq; [exact Ew1|].
      eapply (loop_app_eq _ _ [cColon]); [reflexivity|].
      eapply loop_app_eq; [exact Ew2|exact E0].
    + exact Ht.
    + exists nd'. split; [|exact Hn]. rewrite E. do 2 f_equal. destruct l; reflexivity.
Qed.
End Pretty.

(** ** Prettified streams *)
Lemma pretty_stream ind js t : spells js t -> forall hc nd,
  exists hc' nd', loop (pretty_step ind) (PS 0 hc nd) t =
    (PS 0 hc' nd', (if nd then match js with [] => [] | _ => [cNewline] end else []) ++
       intercalate [cNewline] (map (pretty ind 0) js)).
Proof.
  induction 1 as [|j t Hw Ht|j t js s Hw Ht He Hs IH]; intros hc nd.
  - exists hc, nd. cbn. destruct nd; reflexivity.
  - destruct (pretty_json ind j 0%nat hc nd t Hw Ht) as (nd' & E & _). exists true, nd'. exact E.
  - destruct (pretty_json ind j 0%nat hc nd t Hw Ht) as (nd' & E & Hn). rewrite (Hn eq_refl He) in E.
    destruct (IH true true) as (hc2 & nd2 & E2). exists hc2, nd2.
    pose proof (loop_app_eq _ _ t s _ _ _ _ E E2) as X. refine (eq_trans X _). f_equal.
    cbn [map]. destruct js as [|j2 js].
    + cbn [intercalate map]. rewrite !app_nil_r. reflexivity.
    + destruct nd; cbn -[pretty]; reflexivity.
Qed.

Lemma prettify_once ind js w s : forallb is_ws w = true -> spells js s ->
  text (process (pretty_proc ind) (init (pretty_proc ind)) (w ++ s) true) =
  (match w, js with [], _ | _, [] => [] | _, _ => [cNewline] end) ++
  intercalate [cNewline] (map (pretty ind 0) js).
Proof.
  intros Hw Hs. cbn [process pretty_proc init].
  change (mkPretty 0 false false false false) with (PS 0 false false).
  pose proof (pretty_ws ind 0 false false w Hw) as E1.
  destruct (pretty_stream ind js s Hs false
     (if (0 =? 0)%Z && negb (match w with [] => true | _ => false end) then true else false)) as (hc & nd & E2).
  pose proof (loop_app_eq _ _ w s _ _ _ _ E1 E2) as X. rewrite X. rewrite single_text. cbn [app].
  destruct w; cbn; [reflexivity|]. destruct js; reflexivity.
Qed.

Lemma forallb_concat_repeat ind n : forallb is_ws ind = true -> forallb is_ws (concat (repeat ind n)) = true.
Proof. intros H. induction n as [|n IH]; cbn; [reflexivity|]. now rewrite forallb_app, H, IH. Qed.
Lemma newline_indent_ws ind n : forallb is_ws ind = true -> forallb is_ws (newline_indent ind n) = true.
Proof. intros H. cbn. now apply forallb_concat_repeat. Qed.

Lemma spell_snoc_ws ks t w : spell ks t -> ks <> [] -> forallb is_ws w = true -> spell ks (t ++ w).
Proof.
  induction 1 as [|k ks w0 t Hw0 H IH]; intros Hne Hw; [congruence|].
  rewrite <- !app_assoc. destruct ks as [|k2 ks].
  - inversion H; subst. pose proof (spell_cons k [] (w0 ++ w) []) as X. rewrite app_nil_r in X.
    cbn [app]. apply X; [|constructor]. now rewrite forallb_app, Hw0, Hw.
  - constructor; auto. apply IH; [discriminate|exact Hw].
Qed.

Lemma tokens_nonempty j : tokens j <> [].
Proof. destruct j; discriminate. Qed.

Lemma spell_items (w : bytes) : forallb is_ws w = true ->
  forall (its : list (list bytes * bytes)) k, its <> [] ->
  Forall (fun it => spell (fst it) (snd it)) its ->
  spell (k :: intercalate [[cComma]] (map fst its))
        (k ++ intercalate [cComma] (map (fun it => w ++ snd it) its)).
Proof.
  intros Hw. induction its as [|it its IH]; intros k Hne Hits; [congruence|].
  inversion Hits as [|? ? Hit Hits']; subst. destruct its as [|it2 its].
  - cbn [map intercalate]. now constructor.
  - cbn [map]. rewrite !intercalate_cons by discriminate.
    change (k :: fst it ++ [[cComma]] ++ intercalate [[cComma]] (fst it2 :: map fst its))
      with ((k :: fst it) ++ [cComma] :: intercalate [[cComma]] (map fst (it2 :: its))).
    change (k ++ (w ++ snd it) ++ [cComma] ++ intercalate [cComma] ((w ++ snd it2) :: map (fun it0 => w ++ snd it0) its))
      with (k ++ (w ++ snd it) ++ ([cComma] ++ intercalate [cComma] (map (fun it0 => w ++ snd it0) (it2 :: its)))).
    assert (Y1 : spell (k :: fst it) (k ++ w ++ snd it)) by now constructor.
    pose proof (spell_app _ _ _ _ Y1 (IH [cComma] ltac:(discriminate) Hits')) as Y.
    exact (eq_ind _ (fun z => spell _ z) Y _ (eq_sym (app_assoc k (w ++ snd it) _))).
Qed.

Lemma spell_pretty ind : forallb is_ws ind = true -> forall j d, spell (tokens j) (pretty ind d j).
Proof.
  intros Hi. induction j as [| | |l|b|l IH|l IH] using json_ind2; intros d; try apply spell_concat.
  - destruct l as [|x l]; [apply (spell_concat (tokens (JArr [])))|].
    pose proof (spell_items _ (newline_indent_ws ind (S d) Hi)
       (map (fun x => (tokens x, pretty ind (S d) x)) (x :: l)) [cLBracket] ltac:(discriminate)) as H.
    rewrite !map_map in H. cbn [fst snd] in H.
    assert (HF : Forall (fun it => spell (fst it) (snd it)) (map (fun x => (tokens x, pretty ind (S d) x)) (x :: l))).
    { rewrite Forall_map. rewrite Forall_forall in IH |- *. intros y Hy. cbn [fst snd]. apply IH. exact Hy. }
    specialize (H HF).
    apply (spell_snoc_ws _ _ (newline_indent ind d)) in H; [|discriminate|now apply newline_indent_ws].
    pose proof (spell_app _ _ _ _ H (spell_concat [[cRBracket]])) as H2.
    cbn [concat app] in H2. rewrite <- app_assoc in H2. exact H2.
  - destruct l as [|x l]; [apply (spell_concat (tokens (JObj [])))|].
    pose proof (spell_items _ (newline_indent_ws ind (S d) Hi)
       (map (fun kv => (quoted (fst kv) :: [cColon] :: tokens (snd kv),
           quoted (fst kv) ++ [cColon; cSpace] ++ pretty ind (S d) (snd kv))) (x :: l)) [cLBrace] ltac:(discriminate)) as H.
    rewrite !map_map in H. cbn [fst snd] in H.
    assert (HF : Forall (fun it => spell (fst it) (snd it)) (map (fun kv => (quoted (fst kv) :: [cColon] :: tokens (snd kv),
           quoted (fst kv) ++ [cColon; cSpace] ++ pretty ind (S d) (snd kv))) (x :: l))).
    { rewrite Forall_map. rewrite Forall_forall in IH |- *. intros y Hy. cbn [fst snd].
      change (quoted (fst y) ++ [cColon; cSpace] ++ pretty ind (S d) (snd y))
        with (quoted (fst y) ++ [] ++ ([cColon] ++ [cSpace] ++ pretty ind (S d) (snd y))).
      constructor; [reflexivity|]. constructor; [reflexivity|]. apply IH. exact Hy. }
    specialize (H HF).
    apply (spell_snoc_ws _ _ (newline_indent ind d)) in H; [|discriminate|now apply newline_indent_ws].
    pose proof (spell_app _ _ _ _ H (spell_concat [[cRBrace]])) as H2.
    cbn [concat app] in H2. rewrite <- app_assoc in H2. exact H2.
Qed.

Lemma spells_pretty ind js : forallb is_ws ind = true -> forallb wf_json js = true ->
  spells js (intercalate [cNewline] (map (pretty ind 0) js)).
Proof.
  intros Hi. induction js as [|j js IH]; intros Hw; [constructor|].
  cbn [forallb] in Hw. apply andb_true_iff in Hw. destruct Hw as [Hj Hw]. destruct js as [|j2 js].
  - cbn [map intercalate]. constructor; [exact Hj|]. now apply spell_pretty.
  - enough (Y : spells (j :: j2 :: js) ((pretty ind 0 j ++ [cNewline]) ++ intercalate [cNewline] (map (pretty ind 0) (j2 :: js)))).
    { exact (eq_ind _ (fun z => spells _ z) Y _ (eq_sym (app_assoc (pretty ind 0 j) [cNewline] _))). }
    constructor; [exact Hj| | |apply IH; exact Hw].
    + apply spell_snoc_ws; [now apply spell_pretty|apply tokens_nonempty|reflexivity].
    + exists (pretty ind 0 j), cNewline. split; reflexivity.
Qed.

Lemma prettify_json_text ind js t : forallb is_ws ind = true -> json_text js t ->
  json_text js (text (process (pretty_proc ind) (init (pretty_proc ind)) t true)).
Proof.
  intros Hi (w & s & Hw & Hs & ->). rewrite (prettify_once ind js w s Hw Hs).
  eexists _, _. split; [|split; [|reflexivity]].
  - destruct w; [reflexivity|]. destruct js; reflexivity.
  - apply spells_pretty; [exact Hi|exact (spells_wf _ _ Hs)].
Qed.

Lemma lines_json_text js : forallb wf_json js = true -> json_text js (lines js).
Proof.
  intros Hw. exists [], (lines js). split; [reflexivity|]. split; [|reflexivity].
  induction js as [|j js IH]; [constructor|]. cbn [forallb] in Hw. apply andb_true_iff in Hw.
  destruct Hw as [Hj Hw]. unfold lines in *. cbn [flat_map].
  constructor; [exact Hj| | |apply IH; exact Hw].
  - apply spell_snoc_ws; [apply spell_concat|apply tokens_nonempty|reflexivity].
  - exists (compact j), cNewline. split; reflexivity.
Qed.

(** ** Prettify keeps the significant characters of any text *)
Lemma scan1_ws c : isspace c = true -> scan1 (false, false) c = (false, false).
Proof. intros H. cbn. now rewrite (space_not_quote c H). Qed.
Lemma scan_ws w : forallb is_ws w = true -> scan (false, false) w = (false, false) /\
  significant_from (false, false) w = [].
Proof.
  induction w as [|c w IH]; cbn [forallb]; intros H; [split; reflexivity|].
  apply andb_true_iff in H. destruct H as [Hc H]. apply is_ws_isspace in Hc. destruct (IH H) as [I1 I2].
  change (scan (false, false) (c :: w)) with (scan (scan1 (false, false) c) w).
  cbn [significant_from]. rewrite (scan1_ws c Hc), Hc, I1, I2. split; reflexivity.
Qed.

Definition pretty_q (s : pretty_st) := (p_in_string s, p_in_escape s).
Definition pretty_inv (s : pretty_st) := p_in_string s = false -> p_in_escape s = false.

Lemma pretty_keeps ind : forallb is_ws ind = true -> keeps (pretty_step ind) pretty_q pretty_inv.
Proof.
  intros Hi [d hc ins esc nd] c Hs. cbv zeta. unfold pretty_step, pretty_q, pretty_inv in *.
  cbn [p_in_string p_in_escape] in *.
  assert (Hnl : forall b d' c, isspace c = false ->
    scan (false, false) (nl_if b d' ind ++ [c]) = (c =? cQuote, false) /\
    significant_from (false, false) (nl_if b d' ind ++ [c]) = [c]).
  { intros b d' c0 Hc0. assert (Hw : forallb is_ws (nl_if b d' ind) = true).
    { unfold nl_if. destruct b; [|reflexivity]. cbn. now apply forallb_concat_repeat. }
    destruct (scan_ws _ Hw) as [S1 S2]. rewrite scan_app, sig_app, S1, S2. cbn. rewrite Hc0. split; reflexivity. }
  destruct ins.
  - destruct esc.
    + cbn. auto.
    + destruct (c =? cQuote) eqn:Eq; [|destruct (c =? cBackslash) eqn:Eb]; cbn; rewrite ?Eq, ?Eb; repeat split; auto.
  - rewrite (Hs eq_refl).
    destruct (isspace c) eqn:Es.
    { pose proof (space_not_quote c Es) as Eq. cbn. rewrite ?Eq, ?Es. auto. }
    assert (Hone : significant_from (false, false) [c] = [c]) by (cbn; now rewrite Es).
    rewrite Hone. cbn [scan1].
    assert (Hfin : forall b d' x, x = nl_if b d' ind ++ [c] ->
      scan (false, false) x = (c =? cQuote, false) /\ significant_from (false, false) x = [c]).
    { intros b d' x ->. apply Hnl, Es. }
    destruct (c =? cQuote) eqn:Eq.
    { apply N.eqb_eq in Eq. subst c. cbn [fst snd p_in_string p_in_escape].
      split; [auto|split; [reflexivity|exact (Hfin nd d _ eq_refl)]]. }
    destruct ((c =? cLBracket) || (c =? cLBrace)) eqn:Eo.
    { cbn [fst snd p_in_string p_in_escape]. split; [auto|split; [reflexivity|exact (Hfin nd d _ eq_refl)]]. }
    destruct ((c =? cRBracket) || (c =? cRBrace)) eqn:Ec.
    { cbn [fst snd p_in_string p_in_escape]. split; [auto|split; [reflexivity|]].
      apply (Hfin hc (d - 1)%Z). destruct hc; reflexivity. }
    destruct (c =? cComma) eqn:Em.
    { cbn. rewrite Eq, Es. auto. }
    destruct (c =? cColon) eqn:El.
    { cbn. rewrite Eq, Es. auto. }
    cbn [fst snd p_in_string p_in_escape]. split; [auto|split; [reflexivity|exact (Hfin nd d _ eq_refl)]].
Qed.

Lemma prettify_significant ind t : forallb is_ws ind = true ->
  significant (text (process (pretty_proc ind) (init (pretty_proc ind)) t true)) = significant t.
Proof.
  intros Hi. cbn [process pretty_proc init].
  pose proof (keeps_loop (pretty_step ind) pretty_q pretty_inv (pretty_keeps ind Hi) t (mkPretty 0 false false false false)
     (fun _ => eq_refl)) as K. cbv zeta in K.
  destruct (loop (pretty_step ind) (mkPretty 0 false false false false) t) as [s o]. cbn [fst snd] in K.
  rewrite single_text. apply K.
Qed.

(** ** Runs *)
Lemma run_compact items : concat (run compact_proc items) = text (comp_process C0 (given items) true).
Proof. destruct compact_good as (Hs & He & _). exact (run_from_one _ Hs He items _). Qed.

Lemma given_some l : given (map Some l) = concat l.
Proof. unfold given. rewrite map_map. f_equal. apply map_id. Qed.

Lemma run_compact_significant items : strings_closed (given items) ->
  significant (concat (run compact_proc items)) = significant (given items).
Proof. intros H. rewrite run_compact. apply comp_significant, H. Qed.

Lemma run_compact_idem items : strings_closed (given items) ->
  concat (run compact_proc (map Some (run compact_proc items))) = concat (run compact_proc items).
Proof. intros H. rewrite !run_compact, given_some, run_compact. apply comp_idem, H. Qed.

Lemma run_compact_json js items : json_text js (given items) ->
  concat (run compact_proc items) = lines js.
Proof. intros H. rewrite run_compact. now apply comp_text. Qed.

Lemma run_pretty_significant ind items : forallb is_ws ind = true ->
  significant (concat (run (op_proc (OpPrettify ind)) items)) = significant (given items).
Proof. intros H. rewrite op_run_once. exact (prettify_significant ind (given items) H). Qed.

Lemma run_pretty_json ind js w s items : forallb is_ws w = true -> spells js s -> given items = w ++ s ->
  concat (run (op_proc (OpPrettify ind)) items) =
  (match w, js with [], _ | _, [] => [] | _, _ => [cNewline] end) ++
  intercalate [cNewline] (map (pretty ind 0) js).
Proof. intros Hw Hs E. rewrite op_run_once, E. exact (prettify_once ind js w s Hw Hs). Qed.

Lemma chunk_after_pretty ind js items : forallb is_ws ind = true -> json_text js (given items) ->
  run (op_proc OpChunkValues) (map Some (run (op_proc (OpPrettify ind)) items)) =
  run (op_proc OpChunkValues) items.
Proof.
  intros Hi Hj. rewrite (chunk_values_run js items Hj). apply chunk_values_run.
  rewrite given_some, op_run_once. exact (prettify_json_text ind js _ Hi Hj).
Qed.

Lemma compact_after_pretty ind js items : forallb is_ws ind = true -> json_text js (given items) ->
  concat (run compact_proc (map Some (run (op_proc (OpPrettify ind)) items))) =
  concat (run compact_proc items).
Proof.
  intros Hi Hj. rewrite (run_compact_json js items Hj). apply run_compact_json.
  rewrite given_some, op_run_once. exact (prettify_json_text ind js _ Hi Hj).
Qed.

Lemma chunk_values_same items1 items2 : given items1 = given items2 ->
  run (op_proc OpChunkValues) items1 = run (op_proc OpChunkValues) items2.
Proof.
  assert (G : forall items (st : St chunk_values_proc), run_from chunk_values_proc st items =
              r_chunks (process chunk_values_proc st (given items) true)).
  { induction items as [|[c|] items IH]; intros st; cbn [run_from given map concat]; [reflexivity| |].
    - fold (given items). pose proof (chunk_values_splits_strong st c (given items) true) as (H0 & H1 & _).
      rewrite H0, IH. symmetry. exact H1.
    - fold (given items). cbn [app]. apply IH. }
  intros E. unfold run. cbn [op_proc]. rewrite !G, E. reflexivity.
Qed.
