(** Structural lemmas about JSON spellings, and compactify / prettify (C38). *)
From Coq Require Import String NArith ZArith List Bool Lia.
From Verif Require Import JsonModel JsonSpec JsonChunkProofs.
Import ListNotations.
Open Scope N_scope.

(** ** Induction on JSON values *)
Section JsonInd.
Variable P : json -> Prop.
Hypothesis Hnull : P JNull.
Hypothesis Htrue : P JTrue.
Hypothesis Hfalse : P JFalse.
Hypothesis Hnum : forall l, P (JNum l).
Hypothesis Hstr : forall b, P (JStr b).
Hypothesis Harr : forall l, Forall P l -> P (JArr l).
Hypothesis Hobj : forall l, Forall (fun kv => P (snd kv)) l -> P (JObj l).
Fixpoint json_ind2 (j : json) : P j :=
  match j with
  | JNull => Hnull | JTrue => Htrue | JFalse => Hfalse
  | JNum l => Hnum l | JStr b => Hstr b
  | JArr l => Harr l ((fix go l := match l return Forall P l with
                        | [] => Forall_nil _
                        | x :: l' => Forall_cons _ (json_ind2 x) (go l') end) l)
  | JObj l => Hobj l ((fix go l := match l return Forall (fun kv => P (snd kv)) l with
                        | [] => Forall_nil _
                        | x :: l' => Forall_cons _ (json_ind2 (snd x)) (go l') end) l)
  end.
End JsonInd.

(** ** Spellings *)
Lemma spell_cons_inv k ks t : spell (k :: ks) t ->
  exists w t', forallb is_ws w = true /\ spell ks t' /\ t = k ++ w ++ t'.
Proof. inversion 1; subst. eauto. Qed.

Lemma spell_nil_inv t : spell [] t -> t = [].
Proof. inversion 1. reflexivity. Qed.

Lemma spell_app_inv : forall a b t, spell (a ++ b) t ->
  exists t1 t2, t = t1 ++ t2 /\ spell a t1 /\ spell b t2.
Proof.
  induction a as [|k a IH]; intros b t H; cbn [app] in H.
  - exists [], t. repeat split; auto using spell_nil.
  - apply spell_cons_inv in H. destruct H as (w & t' & Hw & Hs & ->).
    apply IH in Hs. destruct Hs as (t1 & t2 & -> & H1 & H2).
    exists (k ++ w ++ t1), t2. split; [now rewrite <- !app_assoc|]. split; [|assumption].
    now constructor.
Qed.

Lemma spell_app : forall a b t1 t2, spell a t1 -> spell b t2 -> spell (a ++ b) (t1 ++ t2).
Proof.
  intros a b t1 t2 H. revert t2. induction H as [|k ks w t Hw H IH]; intros t2 H2; cbn [app]; auto.
  rewrite <- !app_assoc. constructor; auto.
Qed.

(** The compact spelling is a spelling. *)
Lemma spell_concat : forall ks, spell ks (concat ks).
Proof.
  induction ks as [|k ks IH]; cbn [concat]; [constructor|].
  change (k ++ concat ks) with (k ++ [] ++ concat ks). now constructor.
Qed.

Lemma intercalate_cons {A} (sep x : list A) l : l <> [] ->
  intercalate sep (x :: l) = x ++ sep ++ intercalate sep l.
Proof. destruct l; [congruence|reflexivity]. Qed.

(** ** Characters *)
Lemma is_ws_isspace c : is_ws c = true -> isspace c = true.
Proof.
  unfold is_ws, isspace. intros H. repeat rewrite orb_true_iff in H.
  repeat rewrite N.eqb_eq in H. destruct H as [[[->| ->]| ->]| ->]; reflexivity.
Qed.

(** Characters of an atom: neither whitespace nor structural. *)
Definition atom_char (c : byte) : bool :=
  negb (isspace c) && negb (c =? cQuote) && negb (c =? cLBracket) && negb (c =? cLBrace)
  && negb (c =? cRBracket) && negb (c =? cRBrace) && negb (c =? cComma) && negb (c =? cColon).

Lemma num_char_atom c : num_char c = true -> atom_char c = true.
Proof.
  unfold num_char, atom_char, isspace, cQuote, cLBracket, cLBrace, cRBracket, cRBrace, cComma, cColon.
  intros H.
  repeat rewrite orb_true_iff in H. rewrite andb_true_iff in H. rewrite !N.eqb_eq, !N.leb_le in H.
  assert (E : c = 43 \/ c = 45 \/ c = 46 \/ c = 101 \/ c = 69 \/ 48 <= c <= 57) by lia. clear H.
  destruct E as [->|[->|[->|[->|[->|E]]]]]; try reflexivity.
  repeat rewrite andb_true_iff. repeat rewrite negb_true_iff. repeat rewrite orb_false_iff.
  repeat rewrite andb_false_iff.
  repeat rewrite N.eqb_neq. repeat rewrite N.leb_gt. lia.
Qed.

(** A value that is neither a string nor a container is one token of atom
    characters. *)
Definition atom_text (j : json) : option bytes :=
  match j with
  | JNull => Some (lit "null") | JTrue => Some (lit "true") | JFalse => Some (lit "false")
  | JNum l => Some l
  | _ => None
  end.

Lemma atom_text_ok j a : atom_text j = Some a -> wf_json j = true ->
  a <> [] /\ forallb atom_char a = true /\ tokens j = [a].
Proof.
  destruct j; cbn; intros E Hw; try discriminate; injection E as <-;
    try (split; [discriminate|split; reflexivity]).
  apply andb_true_iff in Hw. destruct Hw as [H1 H2].
  split; [destruct l; [discriminate|discriminate]|]. split; [|reflexivity].
  apply forallb_forall. intros c Hc. apply num_char_atom. rewrite forallb_forall in H2. auto.
Qed.

(** ** Runs of a loop *)
Lemma loop_cons {S} (step : S -> byte -> S * bytes) st c t :
  loop step st (c :: t) =
  (fst (loop step (fst (step st c)) t), snd (step st c) ++ snd (loop step (fst (step st c)) t)).
Proof. cbn [loop]. destruct (step st c) as [s o]. cbn [fst snd]. destruct (loop step s t). reflexivity. Qed.

Lemma loop_app_eq {S} (step : S -> byte -> S * bytes) st a b s1 o1 s2 o2 :
  loop step st a = (s1, o1) -> loop step s1 b = (s2, o2) ->
  loop step st (a ++ b) = (s2, o1 ++ o2).
Proof. intros H1 H2. rewrite loop_app, H1. cbn [fst snd]. rewrite H2. reflexivity. Qed.

(** A state that stays put and answers every character of [t] by [f]. *)
Lemma loop_const {S} (step : S -> byte -> S * bytes) st (f : byte -> bytes) (ok : byte -> bool) :
  (forall c, ok c = true -> step st c = (st, f c)) ->
  forall t, forallb ok t = true -> loop step st t = (st, flat_map f t).
Proof.
  intros H. induction t as [|c t IH]; cbn [forallb loop flat_map]; intros Hok; [reflexivity|].
  apply andb_true_iff in Hok. destruct Hok as [Hc Ht]. rewrite (H c Hc), (IH Ht). reflexivity.
Qed.

Lemma flat_map_nil {A B} (l : list A) : flat_map (fun _ => @nil B) l = [].
Proof. induction l; auto. Qed.
Lemma flat_map_single {A} (l : list A) : flat_map (fun c => [c]) l = l.
Proof. induction l as [|a l IH]; cbn; [auto|now rewrite IH]. Qed.

(** String literals: [A] inside, [E] after a backslash, [F] after the closing
    quote. *)
Lemma loop_string {S} (step : S -> byte -> S * bytes) (A E F : S) (f : byte -> bytes) (last : bytes) :
  (forall c, c <> cQuote -> c <> cBackslash -> step A c = (A, f c)) ->
  step A cBackslash = (E, f cBackslash) ->
  (forall c, step E c = (A, f c)) ->
  step A cQuote = (F, last) ->
  forall b, body_ok b = true -> loop step A (b ++ [cQuote]) = (F, flat_map f b ++ last).
Proof.
  intros H1 H2 H3 H4 b.
  assert (G : forall n b, (List.length b <= n)%nat -> body_ok b = true ->
     loop step A (b ++ [cQuote]) = (F, flat_map f b ++ last)).
  { induction n as [|n IH]; intros [|c b0] Hn Hb; cbn [List.length] in Hn; try lia.
    - cbn. rewrite H4. now rewrite app_nil_r.
    - cbn. rewrite H4. now rewrite app_nil_r.
    - cbn [body_ok] in Hb. destruct (c =? cBackslash) eqn:Ec.
      + apply N.eqb_eq in Ec. subst c. destruct b0 as [|d b1]; [discriminate|].
        apply andb_true_iff in Hb. destruct Hb as [_ Hb].
        cbn [app loop flat_map List.length] in *. rewrite H2, H3.
        rewrite (IH b1) by (try lia; assumption). now rewrite !app_assoc.
      + apply N.eqb_neq in Ec. apply andb_true_iff in Hb. destruct Hb as [Hb1 Hb].
        apply andb_true_iff in Hb1. destruct Hb1 as [_ Hq]. apply negb_true_iff, N.eqb_neq in Hq.
        cbn [app loop flat_map]. rewrite (H1 c Hq Ec).
        rewrite (IH b0) by (try lia; assumption). now rewrite app_assoc. }
  intros Hb. exact (G (List.length b) b (le_n _) Hb).
Qed.

(** ** Transparent mode: a family of states [I d] (d the nesting depth) that
    drops whitespace, answers every other character by [f], and only tracks the
    depth. *)
Section Transparent.
Variable S : Type.
Variable step : S -> byte -> S * bytes.
Variable I A E : Z -> S.
Variable f : byte -> bytes.
Variable dmin : Z.
Variable ws : byte -> bool.
Hypothesis ws_space : forall c, is_ws c = true -> ws c = true -> isspace c = true.
Hypothesis Hws : forall d c, (dmin <= d)%Z -> is_ws c = true -> ws c = true -> step (I d) c = (I d, []).
Hypothesis Hatom : forall d c, (dmin <= d)%Z -> atom_char c = true -> step (I d) c = (I d, f c).
Hypothesis Hcomma : forall d, (dmin < d)%Z -> step (I d) cComma = (I d, f cComma).
Hypothesis Hcolon : forall d, (dmin < d)%Z -> step (I d) cColon = (I d, f cColon).
Hypothesis Hopen : forall d c, (dmin <= d)%Z -> c = cLBracket \/ c = cLBrace ->
  step (I d) c = (I (d + 1), f c).
Hypothesis Hclose : forall d c, (dmin <= d)%Z -> c = cRBracket \/ c = cRBrace ->
  step (I (d + 1)) c = (I d, f c).
Hypothesis Hq : forall d, (dmin <= d)%Z -> step (I d) cQuote = (A d, f cQuote).
Hypothesis Hs1 : forall d c, (dmin <= d)%Z -> c <> cQuote -> c <> cBackslash -> step (A d) c = (A d, f c).
Hypothesis Hs2 : forall d, (dmin <= d)%Z -> step (A d) cBackslash = (E d, f cBackslash).
Hypothesis Hs3 : forall d c, (dmin <= d)%Z -> step (E d) c = (A d, f c).
Hypothesis Hs4 : forall d, (dmin <= d)%Z -> step (A d) cQuote = (I d, f cQuote).

(** whitespace allowed after the tokens *)
Inductive spell_ws : list bytes -> bytes -> Prop :=
  | sw_nil : spell_ws [] []
  | sw_cons k ks w t : forallb (fun c => is_ws c && ws c) w = true -> spell_ws ks t ->
      spell_ws (k :: ks) (k ++ w ++ t).

Lemma sw_cons_inv k ks t : spell_ws (k :: ks) t ->
  exists w t', forallb (fun c => is_ws c && ws c) w = true /\ spell_ws ks t' /\ t = k ++ w ++ t'.
Proof. inversion 1; subst. eauto. Qed.
Lemma sw_app_inv : forall a b t, spell_ws (a ++ b) t ->
  exists t1 t2, t = t1 ++ t2 /\ spell_ws a t1 /\ spell_ws b t2.
Proof.
  induction a as [|k a IH]; intros b t H; cbn [app] in H.
  - exists [], t. repeat split; auto using sw_nil.
  - apply sw_cons_inv in H. destruct H as (w & t' & Hw & Hs & ->).
    apply IH in Hs. destruct Hs as (t1 & t2 & -> & H1 & H2).
    exists (k ++ w ++ t1), t2. split; [now rewrite <- !app_assoc|]. split; [|assumption].
    now constructor.
Qed.

Lemma trans_ws d w : (dmin <= d)%Z -> forallb (fun c => is_ws c && ws c) w = true -> loop step (I d) w = (I d, []).
Proof.
  intros Hd Hw. rewrite (loop_const step (I d) (fun _ => []) (fun c => is_ws c && ws c)); auto.
  - now rewrite flat_map_nil.
  - intros c Hc. apply andb_true_iff in Hc. destruct Hc. now apply Hws.
Qed.

(** one token [k] whose own run goes from [I d] to [I d'] *)
Lemma trans_tok d d' k w t s o : (dmin <= d')%Z ->
  forallb (fun c => is_ws c && ws c) w = true ->
  loop step (I d) k = (I d', flat_map f k) -> loop step (I d') t = (s, o) ->
  loop step (I d) (k ++ w ++ t) = (s, flat_map f k ++ o).
Proof.
  intros Hd Hw Hk Ht. eapply loop_app_eq; [exact Hk|].
  rewrite (loop_app_eq step (I d') w t (I d') [] s o); [reflexivity| |exact Ht].
  now apply trans_ws.
Qed.

Lemma trans_string d b : (dmin <= d)%Z -> body_ok b = true ->
  loop step (I d) (quoted b) = (I d, flat_map f (quoted b)).
Proof.
  intros Hd Hb. unfold quoted. rewrite loop_cons, Hq by exact Hd. cbn [fst snd].
  rewrite (loop_string step (A d) (E d) (I d) f (f cQuote)); auto.
  cbn [fst snd flat_map]. rewrite flat_map_app. cbn [flat_map]. now rewrite app_nil_r.
Qed.

Lemma trans_punct d c : step (I d) c = (I d, f c) -> loop step (I d) [c] = (I d, flat_map f [c]).
Proof. intros H. cbn. rewrite H. now rewrite app_nil_r. Qed.

Definition Tr (j : json) : Prop := forall d t, (dmin <= d)%Z -> wf_json j = true ->
  spell_ws (tokens j) t -> loop step (I d) t = (I d, flat_map f (compact j)).

Lemma trans_list (ks : list (list bytes)) : forall d t, (dmin <= d)%Z ->
  step (I d) cComma = (I d, f cComma) ->
  Forall (fun k => forall t, spell_ws k t -> loop step (I d) t = (I d, flat_map f (concat k))) ks ->
  spell_ws (intercalate [[cComma]] ks) t ->
  loop step (I d) t = (I d, flat_map f (concat (intercalate [[cComma]] ks))).
Proof.
  induction ks as [|k ks IH]; intros d t Hd Hcm Hks Ht.
  - cbn in Ht. inversion Ht; subst. reflexivity.
  - inversion Hks as [|? ? Hk Hks']; subst. destruct ks as [|k2 ks].
    + cbn [intercalate] in *. apply Hk. exact Ht.
    + rewrite intercalate_cons in * by discriminate.
      apply sw_app_inv in Ht. destruct Ht as (t1 & t2 & -> & H1 & H2).
      cbn [app] in H2. apply sw_cons_inv in H2. destruct H2 as (w & t3 & Hw & H3 & ->).
      rewrite !concat_app, !flat_map_app.
      eapply loop_app_eq; [apply Hk; exact H1|].
      change (flat_map f (concat [[cComma]])) with (flat_map f [cComma]).
      eapply (trans_tok d d); [|exact Hw| |].
      * lia.
      * apply trans_punct. exact Hcm.
      * apply IH; auto.
Qed.

Lemma trans_arr_body l : Forall Tr l -> forall d t, (dmin <= d)%Z ->
  step (I d) cComma = (I d, f cComma) ->
  forallb wf_json l = true -> spell_ws (intercalate [[cComma]] (map tokens l)) t ->
  loop step (I d) t = (I d, flat_map f (concat (intercalate [[cComma]] (map tokens l)))).
Proof.
  intros IH d t Hd Hcm Hw Ht. apply trans_list; auto. rewrite Forall_map.
  rewrite Forall_forall in IH |- *. intros x Hx t0 Ht0. apply IH; auto.
  rewrite forallb_forall in Hw. auto.
Qed.

Lemma trans_obj_body (l : list (bytes * json)) : Forall (fun kv => Tr (snd kv)) l -> forall d t, (dmin <= d)%Z ->
  step (I d) cComma = (I d, f cComma) -> step (I d) cColon = (I d, f cColon) ->
  forallb (fun kv => body_ok (fst kv) && wf_json (snd kv)) l = true ->
  spell_ws (intercalate [[cComma]]
        (map (fun kv => quoted (fst kv) :: [cColon] :: tokens (snd kv)) l)) t ->
  loop step (I d) t = (I d, flat_map f (concat (intercalate [[cComma]]
        (map (fun kv => quoted (fst kv) :: [cColon] :: tokens (snd kv)) l)))).
Proof.
  intros IH d t Hd Hcm Hcl Hw Ht. apply trans_list; auto. rewrite Forall_map.
  rewrite Forall_forall in IH |- *. intros x Hx t0 Ht0.
  rewrite forallb_forall in Hw. specialize (Hw x Hx). apply andb_true_iff in Hw. destruct Hw as [Hk Hv].
  cbn [concat]. rewrite !flat_map_app.
  apply sw_cons_inv in Ht0. destruct Ht0 as (w0 & t4 & Hw0 & Ht4 & ->).
  apply sw_cons_inv in Ht4. destruct Ht4 as (w4 & t5 & Hw4 & Ht5 & ->).
  eapply (trans_tok d d); [|exact Hw0| |]; [lia|apply trans_string; [lia|assumption]|].
  eapply (trans_tok d d); [|exact Hw4| |]; [lia|apply trans_punct, Hcl|].
  apply IH; auto.
Qed.

Lemma trans_json : forall j, Tr j.
Proof.
  assert (Hat : forall j a, atom_text j = Some a -> Tr j).
  { intros j a Ha d t Hd Hw Ht. destruct (atom_text_ok j a Ha Hw) as (_ & Hc & Htk).
    unfold compact. rewrite Htk in *. apply sw_cons_inv in Ht.
    destruct Ht as (w & t' & Hww & Ht' & ->). inversion Ht'; subst t'.
    cbn [concat]. rewrite flat_map_app. eapply (trans_tok d d); [|exact Hww| |]; [exact Hd| |reflexivity].
    apply (loop_const step (I d) f atom_char); auto. }
  induction j as [| | |l|b|l IH|l IH] using json_ind2; try (eapply Hat; reflexivity).
  - intros d t Hd Hw Ht. cbn [tokens wf_json] in *. unfold compact. cbn [tokens].
    apply sw_cons_inv in Ht. destruct Ht as (w & t' & Hww & Ht' & ->). inversion Ht'; subst t'.
    cbn [concat]. rewrite flat_map_app. eapply (trans_tok d d); [|exact Hww| |]; [exact Hd| |reflexivity].
    now apply trans_string.
  - intros d t Hd Hw Ht. unfold compact. cbn [tokens wf_json] in *.
    apply sw_cons_inv in Ht. destruct Ht as (w & t' & Hww & Ht & ->).
    apply sw_app_inv in Ht. destruct Ht as (t1 & t2 & -> & H1 & H2).
    apply sw_cons_inv in H2. destruct H2 as (w2 & t3 & Hw2 & H3 & ->). inversion H3; subst t3.
    cbn [concat]. rewrite concat_app. cbn [concat]. rewrite !flat_map_app.
    eapply (trans_tok d (d + 1)%Z); [lia|exact Hww| |].
    { cbn. rewrite Hopen by auto. now rewrite app_nil_r. }
    eapply loop_app_eq.
    { apply trans_arr_body; auto; [lia|apply Hcomma; lia]. }
    eapply (trans_tok (d + 1)%Z d); [exact Hd|exact Hw2| |reflexivity].
    cbn. rewrite Hclose by auto. now rewrite app_nil_r.
  - intros d t Hd Hw Ht. unfold compact. cbn [tokens wf_json] in *.
    apply sw_cons_inv in Ht. destruct Ht as (w & t' & Hww & Ht & ->).
    apply sw_app_inv in Ht. destruct Ht as (t1 & t2 & -> & H1 & H2).
    apply sw_cons_inv in H2. destruct H2 as (w2 & t3 & Hw2 & H3 & ->). inversion H3; subst t3.
    cbn [concat]. rewrite concat_app. cbn [concat]. rewrite !flat_map_app.
    eapply (trans_tok d (d + 1)%Z); [lia|exact Hww| |].
    { cbn. rewrite Hopen by auto. now rewrite app_nil_r. }
    eapply loop_app_eq.
    { apply trans_obj_body; auto; [lia|apply Hcomma; lia|apply Hcolon; lia]. }
    eapply (trans_tok (d + 1)%Z d); [exact Hd|exact Hw2| |reflexivity].
    cbn. rewrite Hclose by auto. now rewrite app_nil_r.
Qed.

(** The inside of a container, at any depth where comma and colon are plain. *)
Lemma trans_arr l d t : (dmin <= d)%Z -> step (I d) cComma = (I d, f cComma) ->
  forallb wf_json l = true -> spell_ws (intercalate [[cComma]] (map tokens l)) t ->
  loop step (I d) t = (I d, flat_map f (concat (intercalate [[cComma]] (map tokens l)))).
Proof. intros. apply trans_arr_body; auto. apply Forall_forall. intros. apply trans_json. Qed.
Lemma trans_obj l d t : (dmin <= d)%Z ->
  step (I d) cComma = (I d, f cComma) -> step (I d) cColon = (I d, f cColon) ->
  forallb (fun kv => body_ok (fst kv) && wf_json (snd kv)) l = true ->
  spell_ws (intercalate [[cComma]]
        (map (fun kv => quoted (fst kv) :: [cColon] :: tokens (snd kv)) l)) t ->
  loop step (I d) t = (I d, flat_map f (concat (intercalate [[cComma]]
        (map (fun kv => quoted (fst kv) :: [cColon] :: tokens (snd kv)) l)))).
Proof. intros. apply trans_obj_body; auto. apply Forall_forall. intros. apply trans_json. Qed.
End Transparent.

Lemma spell_ws_all ks t : spell ks t -> spell_ws (fun _ => true) ks t.
Proof.
  induction 1 as [|k ks w t Hw H IH]; constructor; auto.
  refine (eq_trans _ Hw). clear. induction w as [|c w IH]; cbn; [reflexivity|]. now rewrite andb_true_r, IH.
Qed.
Lemma spell_ws_none ks : spell_ws (fun _ => false) ks (concat ks).
Proof.
  induction ks as [|k ks IH]; cbn [concat]; [constructor|].
  change (k ++ concat ks) with (k ++ [] ++ concat ks). now constructor.
Qed.

(** ** Atom characters as inequalities *)
Lemma atom_char_spec c : atom_char c = true ->
  isspace c = false /\ (c =? cQuote) = false /\ (c =? cLBracket) = false /\ (c =? cLBrace) = false /\
  (c =? cRBracket) = false /\ (c =? cRBrace) = false /\ (c =? cComma) = false /\ (c =? cColon) = false.
Proof.
  unfold atom_char. repeat rewrite andb_true_iff. repeat rewrite negb_true_iff. tauto.
Qed.

(** ** Compactify *)
Definition CI (d : Z) : comp_st := mkComp d true false false.
Definition CA (d : Z) : comp_st := mkComp d true true false.
Definition CE (d : Z) : comp_st := mkComp d true true true.

Lemma comp_nl_deep d b : (1 <= d)%Z -> comp_nl d b = (b, []).
Proof. intros H. unfold comp_nl. replace (d =? 0)%Z with false by lia. reflexivity. Qed.

(** All the hypotheses of [Transparent] for compactify. *)
Ltac comp_trans :=
  first [ solve [auto using spell_ws_all] |
  clear; unfold CI, CA, CE, comp_step;
  first
  [ solve [intros d c Hd Hc _; rewrite (is_ws_isspace _ Hc), comp_nl_deep by exact Hd; reflexivity]
  | solve [intros d c Hd Hc; apply atom_char_spec in Hc; destruct Hc as (-> & -> & -> & -> & -> & -> & _); reflexivity]
  | solve [intros d c Hd [-> | ->]; cbn -[comp_nl Z.add]; rewrite comp_nl_deep by exact Hd; reflexivity]
  | solve [intros d c Hd [-> | ->]; cbn -[comp_nl Z.add Z.sub]; rewrite Z.add_simpl_r, comp_nl_deep by exact Hd; reflexivity]
  | solve [intros d c Hd H1 H2; apply N.eqb_neq in H1, H2; rewrite H1, H2; reflexivity]
  | solve [intros d Hd; cbn -[comp_nl]; rewrite comp_nl_deep by exact Hd; reflexivity] ] ].

Lemma comp_arr l d t : (1 <= d)%Z -> forallb wf_json l = true ->
  spell (intercalate [[cComma]] (map tokens l)) t ->
  loop comp_step (CI d) t = (CI d, concat (intercalate [[cComma]] (map tokens l))).
Proof.
  intros Hd Hw Ht. rewrite <- (flat_map_single (concat _)).
  apply (trans_arr comp_st comp_step CI CA CE (fun c => [c]) 1%Z (fun _ => true)); comp_trans.
Qed.
Lemma comp_obj l d t : (1 <= d)%Z -> forallb (fun kv => body_ok (fst kv) && wf_json (snd kv)) l = true ->
  spell (intercalate [[cComma]] (map (fun kv => quoted (fst kv) :: [cColon] :: tokens (snd kv)) l)) t ->
  loop comp_step (CI d) t = (CI d, concat (intercalate [[cComma]]
     (map (fun kv => quoted (fst kv) :: [cColon] :: tokens (snd kv)) l))).
Proof.
  intros Hd Hw Ht. rewrite <- (flat_map_single (concat _)).
  apply (trans_obj comp_st comp_step CI CA CE (fun c => [c]) 1%Z (fun _ => true)); comp_trans.
Qed.

Definition C0 : comp_st := comp_init.

Lemma comp_ws0 w : forallb is_ws w = true -> loop comp_step C0 w = (C0, []).
Proof.
  intros H. rewrite (loop_const comp_step C0 (fun _ => []) is_ws); [now rewrite flat_map_nil| |exact H].
  intros c Hc. unfold C0, comp_init, comp_step. rewrite (is_ws_isspace _ Hc). reflexivity.
Qed.

(** whitespace after a top-level atom *)
Lemma comp_ws1 w : forallb is_ws w = true -> w <> [] ->
  loop comp_step (mkComp 0 true false false) w = (C0, [cNewline]).
Proof.
  destruct w as [|c w]; [congruence|]. cbn [forallb]. intros H _. apply andb_true_iff in H. destruct H as [Hc Hw].
  assert (E : comp_step (mkComp 0 true false false) c = (C0, [cNewline])).
  { unfold comp_step. rewrite (is_ws_isspace _ Hc). reflexivity. }
  rewrite loop_cons, E. cbn [fst snd]. rewrite comp_ws0 by exact Hw. reflexivity.
Qed.

Lemma comp_value j t : wf_json j = true -> spell (tokens j) t ->
  exists b, loop comp_step C0 t = (mkComp 0 b false false, compact j ++ (if b then [] else [cNewline])) /\
            (ends_ws t -> b = false).
Proof.
  intros Hw Ht. unfold compact.
  destruct (atom_text j) as [a|] eqn:Ea.
  - destruct (atom_text_ok j a Ea Hw) as (Hne & Hc & Htk). rewrite Htk in *.
    apply spell_cons_inv in Ht. destruct Ht as (w & t' & Hww & Ht' & ->). apply spell_nil_inv in Ht'. subst t'.
    rewrite app_nil_r. cbn [concat]. rewrite app_nil_r.
    assert (La : loop comp_step C0 a = (mkComp 0 true false false, a)).
    { destruct a as [|c a]; [congruence|]. cbn [forallb] in Hc. apply andb_true_iff in Hc. destruct Hc as [Hc1 Hc2].
      rewrite loop_cons.
      assert (E : comp_step C0 c = (mkComp 0 true false false, [c])).
      { apply atom_char_spec in Hc1. destruct Hc1 as (E1 & E2 & E3 & E4 & E5 & E6 & _).
        unfold C0, comp_init, comp_step. rewrite E1, E2, E3, E4, E5, E6. reflexivity. }
      rewrite E. cbn [fst snd].
      rewrite (loop_const comp_step (mkComp 0 true false false) (fun c => [c]) atom_char); [|  |exact Hc2].
      - rewrite flat_map_single. reflexivity.
      - intros c0 Hc0. apply atom_char_spec in Hc0. destruct Hc0 as (E1 & E2 & E3 & E4 & E5 & E6 & _).
        unfold comp_step. rewrite E1, E2, E3, E4, E5, E6. reflexivity. }
    destruct w as [|c w].
    + exists true. rewrite !app_nil_r. split; [exact La|].
      intros (t' & c & E & Hws). exfalso.
      assert (Hin : In c a) by (rewrite E; apply in_or_app; right; now left).
      rewrite forallb_forall in Hc. specialize (Hc c Hin). apply atom_char_spec in Hc.
      apply is_ws_isspace in Hws. destruct Hc. congruence.
    + exists false. split; [|auto]. eapply loop_app_eq; [exact La|]. apply comp_ws1; [exact Hww|discriminate].
  - destruct j; try discriminate Ea; clear Ea; cbn [tokens wf_json] in *.
    + apply spell_cons_inv in Ht. destruct Ht as (w & t' & Hww & Ht' & ->). apply spell_nil_inv in Ht'. subst t'.
      exists false. split; [|auto]. cbn [concat]. rewrite !app_nil_r.
      replace (quoted body ++ [cNewline]) with ((quoted body ++ [cNewline]) ++ []) by apply app_nil_r.
      eapply loop_app_eq; [|apply comp_ws0; exact Hww].
      unfold quoted. rewrite loop_cons.
      change (comp_step C0 cQuote) with (CA 0, [cQuote]). cbn [fst snd].
      rewrite (loop_string comp_step (CA 0) (CE 0) C0 (fun c => [c]) [cQuote; cNewline]); auto.
      * cbn [fst snd]. rewrite flat_map_single. cbn [app]. now rewrite <- app_assoc.
      * intros c H1 H2. unfold CA, comp_step. apply N.eqb_neq in H1, H2. rewrite H1, H2. reflexivity.
    + apply spell_cons_inv in Ht. destruct Ht as (w & t' & Hww & Ht & ->).
      apply spell_app_inv in Ht. destruct Ht as (t1 & t2 & -> & H1 & H2).
      apply spell_cons_inv in H2. destruct H2 as (w2 & t3 & Hw2 & H3 & ->). apply spell_nil_inv in H3. subst t3.
      exists false. split; [|auto]. cbn [concat]. rewrite concat_app. cbn [concat app]. rewrite !app_nil_r.
      rewrite loop_cons. change (comp_step C0 cLBracket) with (CI 1, [cLBracket]). cbn [fst snd].
      assert (Lw : loop comp_step (CI 1) w = (CI 1, [])).
      { rewrite (loop_const comp_step (CI 1) (fun _ => []) is_ws); [now rewrite flat_map_nil| |exact Hww].
        intros c Hc. unfold CI, comp_step. rewrite (is_ws_isspace _ Hc). reflexivity. }
      rewrite (loop_app_eq comp_step (CI 1) w _ _ _ C0 (concat (intercalate [[cComma]] (map tokens l)) ++ [cRBracket; cNewline]) Lw).
      * cbn [fst snd app]. now rewrite <- app_assoc.
      * eapply loop_app_eq; [apply comp_arr; [lia|assumption|assumption]|].
        rewrite loop_cons. change (comp_step (CI 1) cRBracket) with (C0, [cRBracket; cNewline]). cbn [fst snd].
        rewrite comp_ws0 by exact Hw2. reflexivity.
    + apply spell_cons_inv in Ht. destruct Ht as (w & t' & Hww & Ht & ->).
      apply spell_app_inv in Ht. destruct Ht as (t1 & t2 & -> & H1 & H2).
      apply spell_cons_inv in H2. destruct H2 as (w2 & t3 & Hw2 & H3 & ->). apply spell_nil_inv in H3. subst t3.
      exists false. split; [|auto]. cbn [concat]. rewrite concat_app. cbn [concat app]. rewrite !app_nil_r.
      rewrite loop_cons. change (comp_step C0 cLBrace) with (CI 1, [cLBrace]). cbn [fst snd].
      assert (Lw : loop comp_step (CI 1) w = (CI 1, [])).
      { rewrite (loop_const comp_step (CI 1) (fun _ => []) is_ws); [now rewrite flat_map_nil| |exact Hww].
        intros c Hc. unfold CI, comp_step. rewrite (is_ws_isspace _ Hc). reflexivity. }
      rewrite (loop_app_eq comp_step (CI 1) w _ _ _ C0 (concat (intercalate [[cComma]]
         (map (fun kv => quoted (fst kv) :: [cColon] :: tokens (snd kv)) l)) ++ [cRBrace; cNewline]) Lw).
      * cbn [fst snd app]. now rewrite <- app_assoc.
      * eapply loop_app_eq; [apply comp_obj; [lia|assumption|assumption]|].
        rewrite loop_cons. change (comp_step (CI 1) cRBrace) with (C0, [cRBrace; cNewline]). cbn [fst snd].
        rewrite comp_ws0 by exact Hw2. reflexivity.
Qed.

Lemma comp_stream js t : spells js t ->
  exists b o, loop comp_step C0 t = (mkComp 0 b false false, o) /\
              o ++ (if b then [cNewline] else []) = lines js.
Proof.
  induction 1 as [|j t Hw Ht|j t js s Hw Ht He Hs IH].
  - exists false, []. split; reflexivity.
  - destruct (comp_value j t Hw Ht) as (b & E & _). exists b. eexists. split; [exact E|].
    cbn. rewrite app_nil_r, <- app_assoc. destruct b; reflexivity.
  - destruct (comp_value j t Hw Ht) as (b & E & Hb). rewrite (Hb He) in E. clear Hb b.
    destruct IH as (b & o & E2 & Ho).
    exists b, ((compact j ++ [cNewline]) ++ o). split.
    + eapply loop_app_eq; [exact E|exact E2].
    + rewrite <- app_assoc, Ho. reflexivity.
Qed.

Lemma comp_text js t e : json_text js t -> e = true ->
  text (comp_process C0 t e) = lines js.
Proof.
  intros (w & s & Hw & Hs & ->) ->. destruct (comp_stream js s Hs) as (b & o & E & Ho).
  unfold comp_process. rewrite (loop_app_eq comp_step C0 w s C0 [] _ _ (comp_ws0 w Hw) E).
  rewrite single_text. cbn [app k_in_value andb]. destruct b; rewrite <- Ho; [reflexivity|now rewrite app_nil_r].
Qed.
