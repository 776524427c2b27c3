(** get_object_key_values / get_object_key_value (C39). *)
From Coq Require Import String NArith ZArith List Bool Lia ZifyBool ZifyN.
From Verif Require Import JsonModel JsonSpec JsonChunkProofs JsonProofs JsonPrettyProofs JsonStringProofs
  JsonLineProofs.
Import ListNotations.
Open Scope N_scope.

Lemma back_snoc l x : back (l ++ [x]) = Some x.
Proof. unfold back. now rewrite rev_unit. Qed.
Lemma set_back_snoc l x y : set_back (l ++ [x]) y = l ++ [y].
Proof. unfold set_back. now rewrite removelast_last. Qed.
Lemma snoc_nonempty {A} (l : list A) x : (match l ++ [x] with [] => true | _ => false end) = false.
Proof. destruct l; reflexivity. Qed.

Lemma run_unquote_literal b s : denotes b s -> run_once unquote_proc (quoted b) = s.
Proof.
  intros H. pose proof (unquote_literal [] b [] s (fun x => x) (fun x => x) H) as X.
  rewrite app_nil_r in X. exact X.
Qed.

Lemma loop_string' {S} (step : S -> byte -> S * bytes) (A E F : S) b : body_ok b = true ->
  (forall c, 32 <= c -> c <> cQuote -> c <> cBackslash -> step A c = (A, [])) ->
  step A cBackslash = (E, []) -> (forall c, 32 <= c -> step E c = (A, [])) -> step A cQuote = (F, []) ->
  loop step A (b ++ [cQuote]) = (F, []).
Proof.
  intros Hb0 H1 H2 H3 H4. revert Hb0.
  assert (G : forall n b, (List.length b <= n)%nat -> body_ok b = true -> loop step A (b ++ [cQuote]) = (F, [])).
  { induction n as [|n IH]; intros [|c b0] Hn Hb; cbn [List.length] in Hn; try lia.
    - cbn. now rewrite H4.
    - cbn. now rewrite H4.
    - cbn [body_ok] in Hb. destruct (c =? cBackslash) eqn:Ec.
      + apply N.eqb_eq in Ec. subst c. destruct b0 as [|d b1]; [discriminate|].
        apply andb_true_iff in Hb. destruct Hb as [Hd Hb]. apply N.leb_le in Hd.
        cbn [app loop List.length] in *. rewrite H2, (H3 d Hd). now rewrite (IH b1) by (try lia; assumption).
      + apply N.eqb_neq in Ec. apply andb_true_iff in Hb. destruct Hb as [Hb1 Hb].
        apply andb_true_iff in Hb1. destruct Hb1 as [Hc Hq]. apply negb_true_iff, N.eqb_neq in Hq. apply N.leb_le in Hc.
        cbn [app loop]. rewrite (H1 c Hc Hq Ec). now rewrite (IH b0) by (try lia; assumption). }
  exact (G _ b (le_n _)).
Qed.

Section Extract.
Variable key : bytes.
Notation m := (match_key key).
Notation step := (ext_step m false).

(** A path that neither matches nor can be extended to a match. *)
Definition dead (st : list part) : Prop :=
  match st with
  | [] => False
  | PKey k :: r => k <> key \/ r <> []
  | PIndex _ :: _ => True
  end.

Lemma dead_no_match st : dead st -> m st = false.
Proof.
  destruct st as [|[i|k] r]; cbn; try tauto. destruct r; [|reflexivity].
  intros [H|H]; [|congruence]. destruct (list_eq_dec N.eq_dec k key); congruence.
Qed.
Lemma dead_snoc st x : dead st -> dead (st ++ [x]).
Proof. destruct st as [|[i|k] r]; cbn; try tauto. intros _. right. destruct r; discriminate. Qed.
Lemma dead_ne st : dead st -> (match st with [] => true | _ => false end) = false.
Proof. destruct st; cbn; tauto. Qed.

(** ** Skipping a value below a dead path *)
Definition EK (st : list part) (k : bool) (buf : bytes) (any instr inesc : bool) : ext_st :=
  mkExt st k buf false any 0 instr inesc.
Notation ES st any := (EK st false [] any false false).

(** the first element of an array *)
Lemma first_elem st any k buf c : dead (st ++ [PIndex 0]) -> (c =? cRBracket) = false ->
  step (EK (st ++ [PIndex (-1)]) k buf any false false) c = step (EK (st ++ [PIndex 0]) k buf any false false) c.
Proof.
  intros Hd Hc. unfold ext_step, EK. cbn [x_stack x_match x_key x_buf x_any x_depth x_in_string x_in_escape].
  rewrite !snoc_nonempty. cbn [andb]. cbn [x_stack]. rewrite !back_snoc, Hc. cbn [andb negb Z.eqb].
  unfold try_start. cbn [x_stack x_match x_key x_buf x_any x_depth x_in_string x_in_escape].
  rewrite !set_back_snoc, (dead_no_match _ Hd). reflexivity.
Qed.

(** A path on which the two preliminary checks do nothing. *)
Definition plain (st : list part) : Prop :=
  (match st with [] => true | _ => false end) = false /\
  (match back st with Some (PIndex i) => (0 <= i)%Z | _ => True end).

Lemma step_plain st k buf any instr inesc c : plain st ->
  step (EK st k buf any instr inesc) c =
  (if instr then
    let buf' := if k then buf ++ [c] else buf in
    if inesc then (EK st k buf' any true false, [])
    else if c =? cQuote then (EK st k buf' any false false, [])
    else if c =? cBackslash then (EK st k buf' any true true, [])
    else (EK st k buf' any true false, [])
  else if c =? cQuote then (EK st k (if k then buf ++ [cQuote] else buf) any true inesc, [])
  else if c =? cLBracket then (EK (st ++ [PIndex (-1)]) false buf any false inesc, [])
  else if (c =? cRBracket) || (c =? cRBrace) then (EK (removelast st) k buf any false inesc, [])
  else if c =? cComma then
    match back st with
    | Some (PIndex i) => try_start m false (EK (set_back st (PIndex (i + 1))) k buf any false inesc)
    | Some (PKey _) => (EK st true buf any false inesc, [])
    | None => (EK st k buf any false inesc, [])
    end
  else if c =? cLBrace then (EK (st ++ [PKey []]) true buf any false inesc, [])
  else if (c =? cColon) && is_in_object st then
    try_start m false (EK (set_back st (PKey (run_once unquote_proc buf))) false [] any false inesc)
  else (EK st k buf any false inesc, [])).
Proof.
  intros [H1 H2]. unfold ext_step, EK. cbn [x_stack x_match x_key x_buf x_any x_depth x_in_string x_in_escape].
  rewrite H1. cbn [andb].
  assert (E : (match back st with
      | Some (PIndex i) =>
          if negb false && (i =? -1)%Z && negb (c =? cRBracket)
          then try_start m false (mkExt (set_back st (PIndex 0)) k buf false any 0 instr inesc)
          else (mkExt st k buf false any 0 instr inesc, [])
      | _ => (mkExt st k buf false any 0 instr inesc, [])
      end) = (mkExt st k buf false any 0 instr inesc, [])).
  { destruct (back st) as [[i|kk]|]; try reflexivity. replace (i =? -1)%Z with false by lia. reflexivity. }
  cbn [x_stack x_match x_key x_buf x_any x_depth x_in_string x_in_escape]. rewrite E. clear E.
  cbn [app negb andb]. destruct instr; [reflexivity|].
  destruct (c =? cQuote); [reflexivity|]. destruct (c =? cLBracket); [reflexivity|].
  destruct ((c =? cRBracket) || (c =? cRBrace)); [reflexivity|].
  destruct (c =? cComma).
  { destruct (back st) as [[i|kk]|]; try reflexivity.
    destruct (try_start m false _) as [s o]. reflexivity. }
  destruct (c =? cLBrace); [reflexivity|]. rewrite andb_true_r.
  destruct ((c =? cColon) && is_in_object st).
  { destruct (try_start m false _) as [s o]. reflexivity. }
  rewrite H1. cbn [andb]. reflexivity.
Qed.

Lemma plain_key st k : plain (st ++ [PKey k]).
Proof. split; [apply snoc_nonempty|]. now rewrite back_snoc. Qed.
Lemma plain_index st i : (0 <= i)%Z -> plain (st ++ [PIndex i]).
Proof. intros H. split; [apply snoc_nonempty|]. rewrite back_snoc. exact H. Qed.

Lemma try_dead st k buf any instr inesc : dead st ->
  try_start m false (EK st k buf any instr inesc) = (EK st k buf any instr inesc, []).
Proof.
  intros H. unfold try_start, EK. cbn [x_stack x_match x_key x_buf x_any x_depth x_in_string x_in_escape].
  now rewrite (dead_no_match _ H).
Qed.

(** a string literal, buffered when a key is expected *)
Lemma skip_string st k buf any b : plain st -> body_ok b = true ->
  loop step (EK st k buf any false false) (quoted b) =
  (EK st k (if k then buf ++ quoted b else buf) any false false, []).
Proof.
  intros Hp Hb. unfold quoted. rewrite loop_cons. rewrite step_plain by exact Hp.
  change (cQuote =? cQuote) with true. cbn [fst snd].
  assert (G : forall n b buf, (List.length b <= n)%nat -> body_ok b = true ->
     loop step (EK st k buf any true false) (b ++ [cQuote]) =
     (EK st k (if k then buf ++ b ++ [cQuote] else buf) any false false, [])).
  { clear b Hb buf. induction n as [|n IH]; intros [|c b0] buf Hn Hb; cbn [List.length] in Hn; try lia.
    - cbn [app loop]. rewrite step_plain by exact Hp. reflexivity.
    - cbn [app loop]. rewrite step_plain by exact Hp. reflexivity.
    - cbn [body_ok] in Hb. destruct (c =? cBackslash) eqn:Ec.
      + apply N.eqb_eq in Ec. subst c. destruct b0 as [|d b1]; [discriminate|].
        apply andb_true_iff in Hb. destruct Hb as [_ Hb]. cbn [List.length] in Hn.
        cbn [app]. rewrite loop_cons, step_plain by exact Hp. cbv zeta.
        change (cBackslash =? cQuote) with false. change (cBackslash =? cBackslash) with true. cbn [fst snd].
        rewrite loop_cons, step_plain by exact Hp. cbv zeta. cbn [fst snd].
        rewrite (IH b1) by (try lia; assumption). cbn [fst snd app]. destruct k; [|reflexivity].
        rewrite <- !app_assoc. reflexivity.
      + apply andb_true_iff in Hb. destruct Hb as [Hb1 Hb]. apply andb_true_iff in Hb1. destruct Hb1 as [_ Hq].
        apply negb_true_iff in Hq. cbn [app]. rewrite loop_cons, step_plain by exact Hp. cbv zeta. rewrite Hq, Ec.
        cbn [fst snd]. rewrite (IH b0) by (try lia; assumption). cbn [fst snd app]. destruct k; [|reflexivity].
        rewrite <- !app_assoc. reflexivity. }
  rewrite (G _ b _ (le_n _) Hb). cbn [fst snd app]. destruct k; [|reflexivity]. rewrite <- !app_assoc. reflexivity.
Qed.

Definition Sk (j : json) : Prop := forall st any, dead st -> plain st -> wf_json j = true -> no_empty_object j = true ->
  loop step (ES st any) (compact j) = (ES st any, []).

Lemma skip_elems l : Forall Sk l -> forall st i any, (forall i, dead (st ++ [PIndex i])) -> (0 <= i)%Z -> l <> [] ->
  forallb wf_json l = true -> forallb no_empty_object l = true ->
  exists i', loop step (ES (st ++ [PIndex i]) any) (intercalate [cComma] (map compact l)) =
  (ES (st ++ [PIndex i']) any, []) /\ (0 <= i')%Z.
Proof.
  induction 1 as [|x l Hx Hl IH]; intros st i any Hd Hi Hne Hw He; [congruence|].
  cbn [forallb] in Hw, He. apply andb_true_iff in Hw, He. destruct Hw as [Hw1 Hw], He as [He1 He].
  pose proof (Hx (st ++ [PIndex i]) any (Hd i) (plain_index _ _ Hi) Hw1 He1) as L1.
  destruct l as [|y l].
  - exists i. split; [exact L1|exact Hi].
  - destruct (IH st (i + 1)%Z any Hd ltac:(lia) ltac:(discriminate) Hw He) as (i' & L3 & Hi').
    exists i'. split; [|exact Hi'].
    assert (L2 : loop step (ES (st ++ [PIndex i]) any) [cComma] = (ES (st ++ [PIndex (i + 1)]) any, [])).
    { cbn [loop]. rewrite step_plain by (now apply plain_index). change (cComma =? cComma) with true.
      change (cComma =? cQuote) with false. change (cComma =? cLBracket) with false.
      change ((cComma =? cRBracket) || (cComma =? cRBrace)) with false. cbv iota.
      rewrite back_snoc, set_back_snoc, try_dead by apply Hd. reflexivity. }
    exact (loop_app_eq _ _ _ _ _ _ _ _ L1 (loop_app_eq _ _ _ _ _ _ _ _ L2 L3)).
Qed.

Definition pair_text (kv : bytes * json) : bytes := quoted (fst kv) ++ [cColon] ++ compact (snd kv).

Lemma compact_obj l : compact (JObj l) = cLBrace :: intercalate [cComma] (map pair_text l) ++ [cRBrace].
Proof.
  unfold compact at 1. cbn [tokens concat]. rewrite concat_app, concat_intercalate, map_map. reflexivity.
Qed.

Lemma colon_step st any buf kk : plain (st ++ [kk]) ->
  (match kk with PKey _ => True | _ => False end) ->
  step (EK (st ++ [kk]) true buf any false false) cColon =
  try_start m false (EK (st ++ [PKey (run_once unquote_proc buf)]) false [] any false false).
Proof.
  intros Hp Hk. rewrite step_plain by exact Hp.
  change (cColon =? cQuote) with false. change (cColon =? cLBracket) with false.
  change ((cColon =? cRBracket) || (cColon =? cRBrace)) with false. change (cColon =? cComma) with false.
  change (cColon =? cLBrace) with false. change (cColon =? cColon) with true. cbv iota.
  unfold is_in_object. rewrite back_snoc. destruct kk; [destruct Hk|]. cbn [andb].
  now rewrite set_back_snoc.
Qed.

Lemma comma_key st any buf k kk : step (EK (st ++ [PKey kk]) k buf any false false) cComma =
  (EK (st ++ [PKey kk]) true buf any false false, []).
Proof.
  rewrite step_plain by apply plain_key. change (cComma =? cComma) with true.
  change (cComma =? cQuote) with false. change (cComma =? cLBracket) with false.
  change ((cComma =? cRBracket) || (cComma =? cRBrace)) with false. cbv iota. now rewrite back_snoc.
Qed.

Lemma skip_pairs l : Forall (fun kv => Sk (snd kv)) l -> forall st k any, dead st -> l <> [] ->
  forallb (fun kv => body_ok (fst kv) && wf_json (snd kv)) l = true ->
  forallb (fun kv => no_empty_object (snd kv)) l = true ->
  exists k', loop step (EK (st ++ [PKey k]) true [] any false false) (intercalate [cComma] (map pair_text l)) =
  (ES (st ++ [PKey k']) any, []).
Proof.
  induction 1 as [|x l Hx Hl IH]; intros st k any Hd Hne Hw He; [congruence|].
  cbn [forallb] in Hw, He. apply andb_true_iff in Hw, He. destruct Hw as [Hw1 Hw], He as [He1 He].
  apply andb_true_iff in Hw1. destruct Hw1 as [Hb Hv].
  set (k1 := run_once unquote_proc (quoted (fst x))).
  assert (L1 : loop step (EK (st ++ [PKey k]) true [] any false false) (pair_text x) = (ES (st ++ [PKey k1]) any, [])).
  { pose proof (skip_string (st ++ [PKey k]) true [] any (fst x) (plain_key _ _) Hb) as A1. cbn [app] in A1.
    assert (A2 : loop step (EK (st ++ [PKey k]) true (quoted (fst x)) any false false) [cColon] = (ES (st ++ [PKey k1]) any, [])).
    { cbn [loop]. rewrite colon_step by (try exact I; apply plain_key). fold k1.
      rewrite try_dead by (now apply dead_snoc). reflexivity. }
    pose proof (Hx (st ++ [PKey k1]) any (dead_snoc _ _ Hd) (plain_key _ _) Hv He1) as A3.
    exact (loop_app_eq _ _ _ _ _ _ _ _ A1 (loop_app_eq _ _ _ _ _ _ _ _ A2 A3)). }
  destruct l as [|y l].
  - exists k1. exact L1.
  - destruct (IH st k1 any Hd ltac:(discriminate) Hw He) as (k' & L3). exists k'.
    assert (L2 : loop step (ES (st ++ [PKey k1]) any) [cComma] = (EK (st ++ [PKey k1]) true [] any false false, [])).
    { cbn [loop]. now rewrite comma_key. }
    exact (loop_app_eq _ _ _ _ _ _ _ _ L1 (loop_app_eq _ _ _ _ _ _ _ _ L2 L3)).
Qed.

Lemma close_step st x c any k buf : plain (st ++ [x]) -> c = cRBracket \/ c = cRBrace ->
  step (EK (st ++ [x]) k buf any false false) c = (EK st k buf any false false, []).
Proof.
  intros Hp Hc. rewrite step_plain by exact Hp. rewrite removelast_last. destruct Hc as [-> | ->]; reflexivity.
Qed.

(** `[]`: the index is still -1 *)
Lemma close_empty st any k buf : step (EK (st ++ [PIndex (-1)]) k buf any false false) cRBracket = (EK st k buf any false false, []).
Proof.
  unfold ext_step, EK. cbn [x_stack x_match x_key x_buf x_any x_depth x_in_string x_in_escape].
  rewrite !snoc_nonempty. cbn [andb]. cbn [x_stack x_match]. rewrite !back_snoc.
  change (cRBracket =? cRBracket) with true. cbn [andb negb Z.eqb]. cbn. now rewrite removelast_last.
Qed.

Lemma skip_array_rest l : Forall Sk l -> forall st any, (forall i, dead (st ++ [PIndex i])) ->
  forallb wf_json l = true -> forallb no_empty_object l = true ->
  loop step (ES (st ++ [PIndex (-1)]) any) (intercalate [cComma] (map compact l) ++ [cRBracket]) = (ES st any, []).
Proof.
  intros HS st any Hd Hw He. destruct l as [|x l].
  - cbn [map intercalate app loop]. now rewrite close_empty.
  - destruct (skip_elems (x :: l) HS st 0%Z any Hd ltac:(lia) ltac:(discriminate) Hw He) as (i' & L1 & Hi').
    assert (L1' : loop step (ES (st ++ [PIndex (-1)]) any) (intercalate [cComma] (map compact (x :: l))) =
                  (ES (st ++ [PIndex i']) any, [])).
    { rewrite <- L1. cbn [forallb] in Hw. apply andb_true_iff in Hw. destruct Hw as [Hx _].
      destruct (compact_first x Hx) as (c & r & E & Hs & _).
      apply starts_value_spec in Hs. destruct Hs as (_ & _ & _ & Hc & _).
      destruct l as [|y l]; cbn [map intercalate]; rewrite E; cbn [app loop]; now rewrite (first_elem st any false [] c (Hd 0%Z) Hc). }
    assert (L2 : loop step (ES (st ++ [PIndex i']) any) [cRBracket] = (ES st any, [])).
    { cbn [loop]. now rewrite close_step by (auto using plain_index). }
    exact (loop_app_eq _ _ _ _ _ _ _ _ L1' L2).
Qed.

Lemma skip_value : forall j, Sk j.
Proof.
  assert (Hat : forall j a, atom_text j = Some a -> Sk j).
  { intros j a Ha st any Hd Hp Hw _. destruct (atom_text_ok j a Ha Hw) as (_ & Hc & Htk).
    unfold compact. rewrite Htk. cbn [concat]. rewrite app_nil_r.
    rewrite (loop_const step (ES st any) (fun _ => []) atom_char); [now rewrite flat_map_nil| |exact Hc].
    intros c Hc0. apply atom_char_spec in Hc0. destruct Hc0 as (E1 & E2 & E3 & E4 & E5 & E6 & E7 & E8).
    rewrite step_plain by exact Hp. rewrite E2, E3, E4, E5, E6, E7, E8. reflexivity. }
  induction j as [| | |l|b|l IH|l IH] using json_ind2; try (eapply Hat; reflexivity).
  - intros st any Hd Hp Hw _. unfold compact. cbn [tokens concat]. rewrite app_nil_r.
    exact (skip_string st false [] any b Hp Hw).
  - intros st any Hd Hp Hw He. rewrite compact_arr. cbn [wf_json no_empty_object] in *.
    assert (L0 : loop step (ES st any) [cLBracket] = (ES (st ++ [PIndex (-1)]) any, [])).
    { cbn [loop]. rewrite step_plain by exact Hp. reflexivity. }
    pose proof (skip_array_rest l IH st any (fun i => dead_snoc st (PIndex i) Hd) Hw He) as L1.
    exact (loop_app_eq _ _ _ _ _ _ _ _ L0 L1).
  - intros st any Hd Hp Hw He. rewrite compact_obj. cbn [wf_json no_empty_object] in *.
    destruct l as [|x l]; [discriminate|].
    assert (L0 : loop step (ES st any) [cLBrace] = (EK (st ++ [PKey []]) true [] any false false, [])).
    { cbn [loop]. rewrite step_plain by exact Hp. reflexivity. }
    destruct (skip_pairs (x :: l) IH st [] any Hd ltac:(discriminate) Hw He) as (k' & L1).
    assert (L2 : loop step (ES (st ++ [PKey k']) any) [cRBrace] = (ES st any, [])).
    { cbn [loop]. now rewrite close_step by (auto using plain_key). }
    exact (loop_app_eq _ _ _ _ _ _ _ _ L0 (loop_app_eq _ _ _ _ _ _ _ _ L1 L2)).
Qed.

(** ** Copying a matched value *)
Definition MI (d : Z) : ext_st := mkExt [PKey key] false [] true true d false false.
Definition MA (d : Z) : ext_st := mkExt [PKey key] false [] true true d true false.
Definition ME (d : Z) : ext_st := mkExt [PKey key] false [] true true d true true.

Lemma copy_value j : wf_json j = true -> loop step (MI 0) (compact j) = (MI 0, compact j).
Proof.
  intros Hw. rewrite <- (flat_map_single (compact j)) at 2.
  apply (trans_json ext_st step MI MA ME (fun c => [c]) 0%Z (fun _ => false)); try exact Hw; try lia;
    try (intros; discriminate); try apply spell_ws_none; unfold MI, MA, ME.
  - intros d c Hd Hc. apply atom_char_spec in Hc. destruct Hc as (E1 & E2 & E3 & E4 & E5 & E6 & E7 & E8).
    unfold ext_step. cbn -[N.eqb]. rewrite E2, E3, E4, E5, E6, E7, E8. reflexivity.
  - intros d Hd. cbn -[Z.eqb]. rewrite (eqb_false_of d 0) by lia. reflexivity.
  - intros d Hd. reflexivity.
  - intros d c Hd [-> | ->]; reflexivity.
  - intros d c Hd [-> | ->]; cbn -[Z.eqb Z.add Z.sub]; rewrite (eqb_false_of (d + 1) 0) by lia; now rewrite Z.add_simpl_r.
  - intros d Hd. reflexivity.
  - intros d c Hd H1 H2. apply N.eqb_neq in H1, H2. unfold ext_step. cbn -[N.eqb]. rewrite H1, H2. reflexivity.
  - intros d Hd. reflexivity.
  - intros d c Hd. reflexivity.
  - intros d Hd. reflexivity.
Qed.

(** ** The pairs of a top-level object *)
Definition sep_text (any : bool) : bytes := if any then [cComma] else [cLBracket].
Fixpoint found (any : bool) (vs : list json) : bytes :=
  match vs with [] => [] | v :: vs' => sep_text any ++ compact v ++ found true vs' end.
Definition some (vs : list json) : bool := match vs with [] => false | _ => true end.

(** a matched pair, up to the character [c] that ends it *)
Lemma top_pairs l vs : pairs_at key l vs -> forall k any, l <> [] ->
  forallb (fun kv => body_ok (fst kv) && wf_json (snd kv)) l = true ->
  forallb (fun kv => no_empty_object (snd kv)) l = true ->
  loop step (EK [PKey k] true [] any false false) (intercalate [cComma] (map pair_text l) ++ [cRBrace]) =
  (ES [] (any || some vs), found any vs).
Proof.
  induction 1 as [|b j l vs Hden Hl IH|b k1 j l vs Hden Hk1 Hl IH]; intros k any Hne Hw He; [congruence| |].
  - cbn [forallb fst snd] in Hw, He. apply andb_true_iff in Hw, He. destruct Hw as [Hw1 Hw], He as [He1 He].
    apply andb_true_iff in Hw1. destruct Hw1 as [Hb Hv].
    pose proof (skip_string [PKey k] true [] any b (plain_key [] k) Hb) as A1. cbn [app] in A1.
    assert (A2 : loop step (EK [PKey k] true (quoted b) any false false) [cColon] = (MI 0, sep_text any)).
    { cbn [loop]. pose proof (colon_step [] any (quoted b) (PKey k) (plain_key [] k) I) as X. cbn [app] in X. rewrite X.
      rewrite (run_unquote_literal b key Hden). unfold try_start, EK.
      cbn [x_stack x_match x_key x_buf x_any x_depth x_in_string x_in_escape match_key].
      destruct (list_eq_dec N.eq_dec key key) as [_|]; [|congruence]. unfold MI, sep_text.
      destruct any; reflexivity. }
    pose proof (copy_value j Hv) as A3.
    destruct l as [|y l].
    + inversion Hl; subst. cbn [map intercalate]. unfold pair_text. cbn [fst snd].
      assert (A4 : loop step (MI 0) [cRBrace] = (ES [] true, [])) by reflexivity.
      pose proof (loop_app_eq _ _ _ _ _ _ _ _ A1 (loop_app_eq _ _ _ _ _ _ _ _ A2 (loop_app_eq _ _ _ _ _ _ _ _ A3 A4))) as A.
      rewrite <- !app_assoc. refine (eq_trans A _). cbn [some found]. now rewrite orb_true_r.
    + specialize (IH key true ltac:(discriminate) Hw He).
      assert (A4 : loop step (MI 0) [cComma] = (EK [PKey key] true [] true false false, [])) by reflexivity.
      pose proof (loop_app_eq _ _ _ _ _ _ _ _ A1 (loop_app_eq _ _ _ _ _ _ _ _ A2 (loop_app_eq _ _ _ _ _ _ _ _ A3
         (loop_app_eq _ _ _ _ _ _ _ _ A4 IH)))) as A.
      cbn [map]. rewrite intercalate_cons by discriminate. unfold pair_text at 1. cbn [fst snd].
      rewrite <- !app_assoc. refine (eq_trans A _). cbn [some found orb app]. now rewrite orb_true_r.
  - cbn [forallb fst snd] in Hw, He. apply andb_true_iff in Hw, He. destruct Hw as [Hw1 Hw], He as [He1 He].
    apply andb_true_iff in Hw1. destruct Hw1 as [Hb Hv].
    assert (Hdead : dead [PKey k1]) by (cbn; now left).
    pose proof (skip_string [PKey k] true [] any b (plain_key [] k) Hb) as A1. cbn [app] in A1.
    assert (A2 : loop step (EK [PKey k] true (quoted b) any false false) [cColon] = (ES [PKey k1] any, [])).
    { cbn [loop]. pose proof (colon_step [] any (quoted b) (PKey k) (plain_key [] k) I) as X. cbn [app] in X. rewrite X.
      rewrite (run_unquote_literal b k1 Hden). now rewrite try_dead. }
    pose proof (skip_value j [PKey k1] any Hdead (plain_key [] k1) Hv He1) as A3.
    destruct l as [|y l].
    + inversion Hl; subst. cbn [map intercalate]. unfold pair_text. cbn [fst snd].
      assert (A4 : loop step (ES [PKey k1] any) [cRBrace] = (ES [] any, [])).
      { cbn [loop]. pose proof (close_step [] (PKey k1) cRBrace any false [] (plain_key [] k1) (or_intror eq_refl)) as X.
        cbn [app] in X. now rewrite X. }
      pose proof (loop_app_eq _ _ _ _ _ _ _ _ A1 (loop_app_eq _ _ _ _ _ _ _ _ A2 (loop_app_eq _ _ _ _ _ _ _ _ A3 A4))) as A.
      rewrite <- !app_assoc. refine (eq_trans A _). cbn [some found]. now rewrite orb_false_r.
    + specialize (IH k1 any ltac:(discriminate) Hw He).
      assert (A4 : loop step (ES [PKey k1] any) [cComma] = (EK [PKey k1] true [] any false false, [])).
      { cbn [loop]. pose proof (comma_key [] any [] false k1) as X. cbn [app] in X. now rewrite X. }
      pose proof (loop_app_eq _ _ _ _ _ _ _ _ A1 (loop_app_eq _ _ _ _ _ _ _ _ A2 (loop_app_eq _ _ _ _ _ _ _ _ A3
         (loop_app_eq _ _ _ _ _ _ _ _ A4 IH)))) as A.
      cbn [map]. rewrite intercalate_cons by discriminate. unfold pair_text at 1. cbn [fst snd].
      rewrite <- !app_assoc. exact A.
Qed.

(** ** Top-level values *)
Lemma step_top k buf any instr inesc c : (c =? cNewline) = false ->
  step (EK [] k buf any instr inesc) c =
  (if instr then
    let buf' := if k then buf ++ [c] else buf in
    if inesc then (EK [] k buf' any true false, [])
    else if c =? cQuote then (EK [] k buf' any false false, [])
    else if c =? cBackslash then (EK [] k buf' any true true, [])
    else (EK [] k buf' any true false, [])
  else if c =? cQuote then (EK [] k (if k then buf ++ [cQuote] else buf) any true inesc, [])
  else if c =? cLBracket then (EK [PIndex (-1)] false buf any false inesc, [])
  else if (c =? cRBracket) || (c =? cRBrace) then (EK [] k buf any false inesc, [])
  else if c =? cComma then (EK [] k buf any false inesc, [])
  else if c =? cLBrace then (EK [PKey []] true buf any false inesc, [])
  else (EK [] k buf any false inesc, [])).
Proof.
  intros Hc. unfold ext_step, EK. cbn [x_stack x_match x_key x_buf x_any x_depth x_in_string x_in_escape andb negb].
  rewrite Hc. cbn [negb andb]. unfold try_start.
  cbn [x_stack x_match x_key x_buf x_any x_depth x_in_string x_in_escape andb negb match_key].
  cbn -[N.eqb cQuote cLBracket cRBracket cRBrace cComma cLBrace cColon cBackslash]. destruct instr; [reflexivity|].
  destruct (c =? cQuote); [reflexivity|]. destruct (c =? cLBracket); [reflexivity|].
  destruct ((c =? cRBracket) || (c =? cRBrace)); [reflexivity|].
  destruct (c =? cComma); [reflexivity|]. destruct (c =? cLBrace); [reflexivity|].
  rewrite andb_false_r. reflexivity.
Qed.

Lemma found_array any vs : found any vs ++ (if any || some vs then lit "]" else lit "[]") =
  (if any then concat (map (fun v => cComma :: compact v) vs) ++ [cRBracket] else compact (JArr vs)).
Proof.
  revert any. induction vs as [|v vs IH]; intros any.
  - destruct any; reflexivity.
  - cbn [found some]. rewrite orb_true_r. specialize (IH true). cbn [orb] in IH.
    rewrite <- !app_assoc, IH. destruct any.
    + unfold sep_text. cbn [map concat app]. rewrite <- app_assoc. reflexivity.
    + unfold sep_text. rewrite compact_arr. cbn [map app]. f_equal. rewrite app_assoc. f_equal.
      clear. revert v. induction vs as [|w vs IH]; intros v.
      * cbn. now rewrite app_nil_r.
      * cbn [map concat]. rewrite intercalate_cons by discriminate. specialize (IH w). rewrite <- IH. reflexivity.
Qed.

Lemma newline_top any : step (ES [] any) cNewline =
  (ES [] false, (if any then lit "]" else lit "[]") ++ [cNewline]).
Proof. reflexivity. Qed.

Lemma top_value j vs : values_at key j vs -> wf_json j = true -> no_empty_object j = true ->
  loop step (ES [] false) (compact j) = (ES [] (some vs), found false vs).
Proof.
  intros Hva Hw He. destruct Hva as [l vs Hp|j Hnot].
  - cbn [wf_json no_empty_object] in *. destruct l as [|x l]; [discriminate|]. rewrite compact_obj.
    rewrite loop_cons, step_top by reflexivity.
    change (fst (EK [PKey []] true [] false false false, @nil N)) with (EK [PKey []] true [] false false false).
    cbn -[EK loop intercalate pair_text map]. 
    rewrite (top_pairs (x :: l) vs Hp [] false ltac:(discriminate) Hw He). reflexivity.
  - cbn [some found]. destruct (atom_text j) as [a|] eqn:Ea.
    + destruct (atom_text_ok j a Ea Hw) as (_ & Hc & Htk). unfold compact. rewrite Htk. cbn [concat]. rewrite app_nil_r.
      rewrite (loop_const step (ES [] false) (fun _ => []) atom_char); [now rewrite flat_map_nil| |exact Hc].
      intros c Hc0. pose proof (starts_value_spec c (atom_starts c Hc0)) as (_ & _ & _ & _ & _ & En).
      apply atom_char_spec in Hc0. destruct Hc0 as (E1 & E2 & E3 & E4 & E5 & E6 & E7 & E8).
      rewrite step_top by exact En. rewrite E2, E3, E4, E5, E6, E7. reflexivity.
    + destruct j as [| | |l|b|l|l]; try discriminate Ea; clear Ea; cbn [wf_json no_empty_object] in *.
      * unfold compact. cbn [tokens concat]. rewrite app_nil_r. unfold quoted. rewrite loop_cons, step_top by reflexivity.
        change (cQuote =? cQuote) with true. cbn [fst snd].
        pose proof (body_ok_no_control b Hw) as Hnc.
        rewrite (loop_string' step (EK [] false [] false true false) (EK [] false [] false true true) (ES [] false) b Hw).
        -- reflexivity.
        -- intros c Hc H1 H2. rewrite step_top. { apply N.eqb_neq in H1, H2. now rewrite H1, H2. } unfold cNewline. lia.
        -- reflexivity.
        -- intros c Hc. rewrite step_top; [reflexivity|]. unfold cNewline. lia.
        -- reflexivity.
      * rewrite compact_arr.
        assert (L0 : loop step (ES [] false) [cLBracket] = (ES [PIndex (-1)] false, [])) by reflexivity.
        assert (HS : Forall Sk l) by (apply Forall_forall; intros; apply skip_value).
        pose proof (skip_array_rest l HS [] false (fun _ => I) Hw He) as L1.
        exact (loop_app_eq _ _ _ _ _ _ _ _ L0 L1).
      * exfalso. exact (Hnot l eq_refl).
Qed.

Lemma top_line j vs : values_at key j vs -> wf_json j = true -> no_empty_object j = true ->
  loop step (ES [] false) (compact j ++ [cNewline]) = (ES [] false, compact (JArr vs) ++ [cNewline]).
Proof.
  intros Hva Hw He. pose proof (top_value j vs Hva Hw He) as L1.
  assert (L2 : loop step (ES [] (some vs)) [cNewline] = (ES [] false, (if some vs then lit "]" else lit "[]") ++ [cNewline])).
  { cbn [loop]. rewrite newline_top. now rewrite app_nil_r. }
  refine (eq_trans (loop_app_eq _ _ _ _ _ _ _ _ L1 L2) _). f_equal. rewrite app_assoc. f_equal.
  exact (found_array false vs).
Qed.

Lemma extract_lines js vss : Forall2 (values_at key) js vss -> forallb wf_json js = true ->
  forallb no_empty_object js = true ->
  loop step (ES [] false) (lines js) = (ES [] false, lines (map JArr vss)).
Proof.
  induction 1 as [|j vs js vss Hj Hjs IH]; cbn [forallb]; intros Hw He; [reflexivity|].
  apply andb_true_iff in Hw, He. destruct Hw as [Hw1 Hw], He as [He1 He].
  exact (loop_app_eq _ _ _ _ _ _ _ _ (top_line j vs Hj Hw1 He1) (IH Hw He)).
Qed.

Lemma extract_text js vss : Forall2 (values_at key) js vss -> forallb wf_json js = true ->
  forallb no_empty_object js = true ->
  text (process (extract_proc m false) (init (extract_proc m false)) (lines js) true) = lines (map JArr vss).
Proof.
  intros H Hw He. cbn [process extract_proc loop_proc init].
  pose proof (extract_lines js vss H Hw He) as L.
  match goal with |- text (let '(_, _) := ?x in _) = _ => replace x with (ES [] false, lines (map JArr vss)) by (symmetry; exact L) end.
  apply single_text.
Qed.

Lemma pairs_wf l vs : pairs_at key l vs -> forallb (fun kv => body_ok (fst kv) && wf_json (snd kv)) l = true ->
  forallb wf_json vs = true.
Proof.
  induction 1 as [|b j l vs Hden Hl IH|b k1 j l vs Hden Hk1 Hl IH]; cbn [forallb fst snd]; intros Hw; [reflexivity| |];
    apply andb_true_iff in Hw; destruct Hw as [W1 W2]; apply andb_true_iff in W1; destruct W1 as [_ W1].
  - now rewrite W1, (IH W2).
  - exact (IH W2).
Qed.
Lemma values_wf j vs : values_at key j vs -> wf_json j = true -> forallb wf_json vs = true.
Proof. intros [l vs' Hp|j' _] Hw; [exact (pairs_wf l vs' Hp Hw)|reflexivity]. Qed.

Lemma values_all_wf js vss : Forall2 (values_at key) js vss -> forallb wf_json js = true ->
  forallb wf_json (map JArr vss) = true.
Proof.
  induction 1 as [|j vs js vss Hj Hjs IH]; cbn [forallb map]; intros Hw; [reflexivity|].
  apply andb_true_iff in Hw. destruct Hw as [Hw1 Hw]. cbn [wf_json]. now rewrite (values_wf j vs Hj Hw1), (IH Hw).
Qed.
End Extract.

Lemma run_key_values key js vss items : json_text js (given items) -> Forall2 (values_at key) js vss ->
  forallb no_empty_object js = true ->
  concat (run (op_proc (OpGetObjectKeyValues key)) items) = lines (map JArr vss).
Proof.
  intros Hj Hv He. refine (eq_trans (comp_then (extract_proc (match_key key) false) js items (loop_good _ _) Hj) _).
  exact (extract_text key js vss Hv (json_text_wf _ _ Hj) He).
Qed.

Lemma run_key_value key js vss items : json_text js (given items) -> Forall2 (values_at key) js vss ->
  forallb no_empty_object js = true ->
  concat (run (op_proc (OpGetObjectKeyValue key)) items) = lines (map (fun vs => hd JNull vs) vss).
Proof.
  intros Hj Hv He. pose proof (json_text_wf _ _ Hj) as Hw.
  refine (eq_trans (comp_then2 (extract_proc (match_key key) false) (nth_proc 0) js items (loop_good _ _) (loop_good _ _) Hj) _).
  rewrite (extract_text key js vss Hv Hw He).
  rewrite (nth_text 0 ltac:(lia) (map JArr vss)).
  - rewrite map_map. f_equal. apply map_ext. intros [|v vs]; reflexivity.
  - apply lines_json_text. exact (values_all_wf key js vss Hv Hw).
  - rewrite forallb_forall. intros x Hx. apply in_map_iff in Hx. destruct Hx as (vs & <- & _). reflexivity.
Qed.
