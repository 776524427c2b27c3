(** Proofs about salvage: whatever the input, the output follows the grammar. *)
From Coq Require Import String Ascii NArith ZArith List Bool Lia ZifyBool ZifyN.
From Verif Require Import JsonModel JsonSpec JsonChunkProofs SalvageModel SalvageSpec.
Import ListNotations.
Open Scope N_scope.

(** ** Pieces of the grammar *)
Lemma string_ok_app a b : string_ok a -> string_ok b -> string_ok (a ++ b).
Proof.
  induction 1; intros Hb; cbn [app]; [exact Hb|apply so_raw|apply so_esc|apply so_u]; auto.
Qed.

Lemma intercalate_snoc {A} (sep : list A) l x : l <> [] ->
  intercalate sep (l ++ [x]) = intercalate sep l ++ sep ++ x.
Proof.
  induction l as [|y l IH]; intros H; [congruence|].
  destruct l as [|z l]; [reflexivity|].
  change (intercalate sep ((y :: z :: l) ++ [x])) with (y ++ sep ++ intercalate sep ((z :: l) ++ [x])).
  rewrite IH by discriminate. change (intercalate sep (y :: z :: l)) with (y ++ sep ++ intercalate sep (z :: l)).
  rewrite <- !app_assoc. reflexivity.
Qed.

Ltac flds := cbn [set_stack set_sep set_key set_buf set_leaf set_sur s_stack s_sep s_key s_buf s_leaf s_sur fst snd] in *.

Section Validity.
Variable opts : salvage_options.
Notation nan := (o_nan opts).

Definition vtext (t : bytes) : Prop := exists j, valid nan j /\ t = compact j.
Definition mtext (t : bytes) : Prop :=
  exists b j, string_ok b /\ valid nan j /\ t = quoted b ++ [cColon] ++ compact j.

Inductive place := Fresh | Await | After | AwaitKey | AfterKey.

(** a comma separated sequence under construction *)
Definition items_at (P : bytes -> Prop) (sep : bytes) (p : place) (inner : bytes) : Prop :=
  match p with
  | Fresh => inner = []
  | Await => inner = [] \/ exists l, l <> [] /\ Forall P l /\ inner = intercalate sep l ++ sep
  | After => exists l, l <> [] /\ Forall P l /\ inner = intercalate sep l
  | _ => False
  end.

Definition top_at (p : place) (out : bytes) : Prop :=
  match p with
  | Fresh => out = []
  | Await => exists nl inner, (nl = [] \/ nl = [10]) /\ out = nl ++ inner /\ items_at vtext [10] Await inner
  | After => out = [] \/
             exists nl inner, (nl = [] \/ nl = [10]) /\ out = nl ++ inner /\ items_at vtext [10] After inner
  | _ => False
  end.

Definition obj_at (p : place) (inner : bytes) : Prop :=
  match p with
  | Fresh => inner = []
  | AwaitKey => items_at mtext [44] Await inner
  | AfterKey => exists x b, items_at mtext [44] Await x /\ string_ok b /\ inner = x ++ quoted b
  | Await => exists x b, items_at mtext [44] Await x /\ string_ok b /\ inner = x ++ quoted b ++ [58]
  | After => items_at mtext [44] After inner
  end.

Fixpoint ctx (k : list container) (p : place) (out : bytes) : Prop :=
  match k with
  | [] => top_at p out
  | CArray :: k' => exists pre inner, ctx k' Await pre /\ out = pre ++ 91 :: inner /\ items_at vtext [44] p inner
  | CObject :: k' => exists pre inner, ctx k' Await pre /\ out = pre ++ 123 :: inner /\ obj_at p inner
  end.

Lemma items_add P sep inner x : items_at P sep Await inner -> P x -> items_at P sep After (inner ++ x).
Proof.
  intros [->|(l & Hl & HP & ->)] Hx; cbn [items_at].
  - exists [x]. cbn. repeat split; auto; discriminate.
  - exists (l ++ [x]). split; [destruct l; discriminate|]. split; [apply Forall_app; auto|].
    rewrite intercalate_snoc by exact Hl. rewrite <- !app_assoc. reflexivity.
Qed.
Lemma items_sep P sep inner : items_at P sep After inner -> items_at P sep Await (inner ++ sep).
Proof. intros (l & Hl & HP & ->). right. exists l. auto. Qed.
Lemma items_fresh P sep inner : items_at P sep Fresh inner -> items_at P sep Await inner.
Proof. intros H. left. exact H. Qed.

Lemma ctx_value k p v : ctx k Await p -> vtext v -> ctx k After (p ++ v).
Proof.
  intros H Hv. destruct k as [|[|] k]; cbn [ctx top_at] in *.
  - destruct H as (nl & inner & Hn & -> & Hi). right. exists nl, (inner ++ v).
    split; [exact Hn|]. split; [rewrite app_assoc; reflexivity|]. apply items_add; assumption.
  - destruct H as (pre & inner & Hc & -> & Hi). exists pre, (inner ++ v).
    split; [exact Hc|]. split; [rewrite <- app_assoc; reflexivity|]. apply items_add; assumption.
  - destruct H as (pre & inner & Hc & -> & (x & b & Hx & Hb & ->)).
    exists pre, (x ++ (quoted b ++ [58] ++ v)). split; [exact Hc|].
    split; [rewrite <- !app_assoc; cbn [app]; rewrite <- !app_assoc; reflexivity|].
    cbn [obj_at]. apply items_add; [exact Hx|]. destruct Hv as (j & Hj & ->). exists b, j. auto.
Qed.
Lemma ctx_key k p b : ctx (CObject :: k) AwaitKey p -> string_ok b -> ctx (CObject :: k) AfterKey (p ++ quoted b).
Proof.
  intros (pre & inner & Hc & -> & Hi) Hb. exists pre, (inner ++ quoted b).
  split; [exact Hc|]. split; [rewrite <- app_assoc; reflexivity|]. exists inner, b. auto.
Qed.
Lemma ctx_empty_key k p : ctx (CObject :: k) AwaitKey p -> ctx (CObject :: k) Await (p ++ lit """"":").
Proof.
  intros H. apply (ctx_key _ _ []) in H; [|constructor].
  destruct H as (pre & inner & Hc & E & (x & b & Hx & Hb & ->)).
  exists pre, (x ++ quoted b ++ [58]). split; [exact Hc|].
  split; [|exists x, b; auto].
  replace (p ++ lit """"":") with ((p ++ quoted []) ++ [58]) by (rewrite <- app_assoc; reflexivity).
  rewrite E, <- !app_assoc. cbn [app]. rewrite <- !app_assoc. reflexivity.
Qed.
Lemma ctx_comma k out : ctx (CArray :: k) After out -> ctx (CArray :: k) Await (out ++ [44]).
Proof.
  intros (pre & inner & Hc & -> & Hi). exists pre, (inner ++ [44]). split; [exact Hc|].
  split; [rewrite <- app_assoc; reflexivity|]. apply items_sep, Hi.
Qed.
Lemma ctx_newline out : ctx [] After out -> ctx [] Await (out ++ [10]).
Proof.
  intros [->|(nl & inner & Hn & -> & Hi)].
  - exists [10], []. split; [auto|]. split; [reflexivity|]. left. reflexivity.
  - exists nl, (inner ++ [10]). split; [exact Hn|]. split; [rewrite app_assoc; reflexivity|]. apply items_sep, Hi.
Qed.
Lemma ctx_ocomma k out : ctx (CObject :: k) After out -> ctx (CObject :: k) AwaitKey (out ++ [44]).
Proof.
  intros (pre & inner & Hc & -> & Hi). exists pre, (inner ++ [44]). split; [exact Hc|].
  split; [rewrite <- app_assoc; reflexivity|]. apply items_sep, Hi.
Qed.
Lemma ctx_colon k out : ctx (CObject :: k) AfterKey out -> ctx (CObject :: k) Await (out ++ [58]).
Proof.
  intros (pre & inner & Hc & -> & (x & b & Hx & Hb & ->)). exists pre, (x ++ quoted b ++ [58]). split; [exact Hc|].
  split; [rewrite <- !app_assoc; cbn [app]; rewrite <- !app_assoc; reflexivity|]. exists x, b. auto.
Qed.
Lemma ctx_fresh k out : ctx k Fresh out ->
  match k with CObject :: _ => ctx k AwaitKey out | _ => ctx k Await out end.
Proof.
  destruct k as [|[|] k]; cbn [ctx].
  - intros ->. exists [], []. split; [auto|]. split; [reflexivity|]. left. reflexivity.
  - intros (pre & inner & Hc & -> & Hi). exists pre, inner. split; [exact Hc|]. split; [reflexivity|]. left. exact Hi.
  - intros (pre & inner & Hc & -> & Hi). exists pre, inner. split; [exact Hc|]. split; [reflexivity|]. left. exact Hi.
Qed.
Lemma ctx_open_arr k p : ctx k Await p -> ctx (CArray :: k) Fresh (p ++ [91]).
Proof. intros H. exists p, []. split; [exact H|]. split; reflexivity. Qed.
Lemma ctx_open_obj k p : ctx k Await p -> ctx (CObject :: k) Fresh (p ++ [123]).
Proof. intros H. exists p, []. split; [exact H|]. split; reflexivity. Qed.

Lemma vtexts l : Forall vtext l -> exists js, Forall (valid nan) js /\ l = map compact js.
Proof.
  induction 1 as [|x l (j & Hj & ->) _ (js & Hjs & ->)].
  - exists []. auto.
  - exists (j :: js). auto.
Qed.
Lemma mtexts l : Forall mtext l -> exists kvs,
  Forall (fun kv => string_ok (fst kv)) kvs /\ Forall (fun kv => valid nan (snd kv)) kvs /\
  l = map (fun kv => quoted (fst kv) ++ [cColon] ++ compact (snd kv)) kvs.
Proof.
  induction 1 as [|x l (b & j & Hb & Hj & ->) _ (js & H1 & H2 & ->)].
  - exists []. auto.
  - exists ((b, j) :: js). auto.
Qed.

Lemma concat_intercalate {A} (sep : list A) (L : list (list (list A))) :
  concat (intercalate [sep] L) = intercalate sep (map (@concat A) L).
Proof.
  induction L as [|x L IH]; [reflexivity|]. destruct L as [|y L]; [reflexivity|].
  change (intercalate [sep] (x :: y :: L)) with (x ++ [sep] ++ intercalate [sep] (y :: L)).
  rewrite !concat_app, IH. cbn [concat]. rewrite app_nil_r. reflexivity.
Qed.
Lemma compact_arr l : compact (JArr l) = 91 :: intercalate [44] (map compact l) ++ [93].
Proof.
  unfold compact at 1. cbn [tokens concat app]. unfold cLBracket. f_equal.
  rewrite concat_app, concat_intercalate, map_map. reflexivity.
Qed.
Lemma compact_obj l : compact (JObj l) =
  123 :: intercalate [44] (map (fun kv => quoted (fst kv) ++ [cColon] ++ compact (snd kv)) l) ++ [125].
Proof.
  unfold compact at 1. cbn [tokens concat app]. unfold cLBrace. f_equal.
  rewrite concat_app, concat_intercalate, map_map. reflexivity.
Qed.

Lemma ctx_close_arr k out : ctx (CArray :: k) Fresh out \/ ctx (CArray :: k) After out ->
  ctx k After (out ++ [93]).
Proof.
  intros H. assert (H' : exists pre l, ctx k Await pre /\ Forall vtext l /\ out = pre ++ 91 :: intercalate [44] l).
  { destruct H as [(pre & inner & Hc & -> & Hi)|(pre & inner & Hc & -> & (l & _ & Hl & ->))].
    - exists pre, []. cbn in Hi. subst inner. auto.
    - exists pre, l. auto. }
  clear H. destruct H' as (pre & l & Hc & Hl & ->).
  rewrite <- app_assoc. apply ctx_value; [exact Hc|].
  destruct (vtexts l Hl) as (js & Hj & ->). exists (JArr js). split; [constructor; exact Hj|].
  rewrite compact_arr. reflexivity.
Qed.
Lemma ctx_close_obj k out : ctx (CObject :: k) Fresh out \/ ctx (CObject :: k) After out ->
  ctx k After (out ++ [125]).
Proof.
  intros H. assert (H' : exists pre l, ctx k Await pre /\ Forall mtext l /\ out = pre ++ 123 :: intercalate [44] l).
  { destruct H as [(pre & inner & Hc & -> & Hi)|(pre & inner & Hc & -> & (l & _ & Hl & ->))].
    - exists pre, []. cbn in Hi. subst inner. auto.
    - exists pre, l. auto. }
  clear H. destruct H' as (pre & l & Hc & Hl & ->).
  rewrite <- app_assoc. apply ctx_value; [exact Hc|].
  destruct (mtexts l Hl) as (js & Hj1 & Hj2 & ->). exists (JObj js). split; [constructor; assumption|].
  rewrite compact_obj. reflexivity.
Qed.
Lemma ctx_close_obj_null k out : ctx (CObject :: k) AfterKey out -> ctx k After (out ++ lit ":null}").
Proof.
  intros H. apply ctx_colon in H. apply (ctx_value _ _ (lit "null")) in H.
  - assert (H' : ctx k After (((out ++ [58]) ++ lit "null") ++ [125])) by (apply ctx_close_obj; auto).
    rewrite <- !app_assoc in H'. exact H'.
  - exists JNull. split; [constructor|reflexivity].
Qed.

(** ** The state *)
Definition key_ok (s : sst) : Prop := s_key s = true -> exists k, s_stack s = CObject :: k.

(** between two values *)
Definition rest (s : sst) (out : bytes) : Prop :=
  key_ok s /\
  (if s_sep s then
     match s_stack s with
     | CObject :: _ => if s_key s then ctx (s_stack s) After out else ctx (s_stack s) AfterKey out
     | _ => ctx (s_stack s) After out
     end
   else ctx (s_stack s) Fresh out /\ s_key s = match s_stack s with CObject :: _ => true | _ => false end).

(** the separator is written, the value is to come *)
Definition started (s : sst) (out : bytes) : Prop :=
  key_ok s /\ s_sep s = false /\ ctx (s_stack s) (if s_key s then AwaitKey else Await) out.

Definition ready (s : sst) (out : bytes) : Prop :=
  key_ok s /\
  (if s_sep s then
     match s_stack s with
     | CObject :: _ => if s_key s then ctx (s_stack s) After out else ctx (s_stack s) AfterKey out
     | _ => ctx (s_stack s) After out
     end
   else ctx (s_stack s) (if s_key s then AwaitKey else Await) out).

Lemma rest_ready s out : rest s out -> ready s out.
Proof.
  intros [Hk H]. split; [exact Hk|]. destruct (s_sep s); [exact H|]. destruct H as [H Hkey].
  apply ctx_fresh in H. rewrite Hkey. destruct (s_stack s) as [|[|] k]; exact H.
Qed.
Lemma started_ready s out : started s out -> ready s out.
Proof. intros (Hk & E & H). split; [exact Hk|]. rewrite E. exact H. Qed.

(** Nothing but these three fields matters. *)
Definition same3 (s s' : sst) : Prop :=
  s_stack s' = s_stack s /\ s_sep s' = s_sep s /\ s_key s' = s_key s.
Lemma rest_same s s' out : same3 s s' -> rest s out -> rest s' out.
Proof. intros (E1 & E2 & E3). unfold rest, key_ok. rewrite E1, E2, E3. auto. Qed.
Lemma started_same s s' out : same3 s s' -> started s out -> started s' out.
Proof. intros (E1 & E2 & E3). unfold started, key_ok. rewrite E1, E2, E3. auto. Qed.
Lemma ready_same s s' out : same3 s s' -> ready s out -> ready s' out.
Proof. intros (E1 & E2 & E3). unfold ready, key_ok. rewrite E1, E2, E3. auto. Qed.
Lemma same3_refl s : same3 s s.
Proof. repeat split. Qed.

(** Hoare triples: [P] before, [Q] after, of the fields and the whole output. *)
Definition tri (P : sst -> bytes -> Prop) (a : act) (Q : sst -> bytes -> Prop) : Prop :=
  forall s out, P s out -> Q (fst (a s)) (out ++ snd (a s)).

Lemma tri_seq P a R b Q : tri P a R -> tri R b Q -> tri P (a ;; b) Q.
Proof.
  intros Ha Hb s out HP. specialize (Ha s out HP). unfold andthen.
  destruct (a s) as [s1 o1]. specialize (Hb s1 _ Ha). cbn [fst snd] in *.
  destruct (b s1) as [s2 o2]. cbn [fst snd] in *. rewrite app_assoc. exact Hb.
Qed.
Lemma tri_weak (P P' Q Q' : sst -> bytes -> Prop) a :
  tri P' a Q' -> (forall s o, P s o -> P' s o) -> (forall s o, Q' s o -> Q s o) -> tri P a Q.
Proof. intros H H1 H2 s out HP. apply H2, H, H1, HP. Qed.
Lemma tri_nop P : tri P nop P.
Proof. intros s out H. cbn. rewrite app_nil_r. exact H. Qed.
Lemma tri_upd (P : sst -> bytes -> Prop) f (Q : sst -> bytes -> Prop) : (forall s out, P s out -> Q (f s) out) -> tri P (upd f) Q.
Proof. intros H s out HP. cbn. rewrite app_nil_r. apply H, HP. Qed.
Lemma tri_emit (P : sst -> bytes -> Prop) b (Q : sst -> bytes -> Prop) : (forall s out, P s out -> Q s (out ++ b)) -> tri P (emit b) Q.
Proof. intros H s out HP. cbn. apply H, HP. Qed.

Lemma start_value_ok : tri ready start_value started.
Proof.
  intros s out (Hk & H). unfold start_value. cbn [fst snd].
  unfold started, key_ok. cbn [set_sep s_stack s_key s_sep].
  split; [exact Hk|]. split; [reflexivity|].
  destruct (s_sep s).
  - unfold key_ok in Hk. destruct (s_stack s) as [|[|] k] eqn:Es.
    + destruct (s_key s); [destruct (Hk eq_refl) as [k' E]; discriminate|]. apply ctx_newline, H.
    + destruct (s_key s); [destruct (Hk eq_refl) as [k' E]; discriminate|]. apply ctx_comma, H.
    + destruct (s_key s); [apply ctx_ocomma, H|apply ctx_colon, H].
  - rewrite app_nil_r. exact H.
Qed.

Definition started_value (s : sst) (out : bytes) : Prop := started s out /\ s_key s = false.

Lemma start_non_key_ok : tri ready start_non_key_value started_value.
Proof.
  unfold start_non_key_value. eapply tri_seq; [exact start_value_ok|].
  intros s out (Hk & E & H). unfold cond. destruct (s_key s) eqn:Ek.
  - cbn. destruct (Hk Ek) as [k Es]. unfold started_value, started, key_ok. cbn. rewrite E.
    split; [|reflexivity]. split; [discriminate|]. split; [reflexivity|].
    rewrite Es in *. apply ctx_empty_key, H.
  - cbn. rewrite app_nil_r. unfold started_value, started. rewrite Ek, E. repeat split; auto.
Qed.

(** the value or key is complete *)
Definition finished (s : sst) (out : bytes) : Prop :=
  if s_key s then exists k, s_stack s = CObject :: k /\ ctx (s_stack s) AfterKey out
  else ctx (s_stack s) After out.

Definition at_base (s : sst) : Prop := s_leaf s = LBase /\ s_buf s = [].

Lemma end_value_ok : tri finished end_value (fun s out => at_base s /\ rest s out).
Proof.
  intros s out H. unfold end_value, andthen, set_state_buf, upd. cbn [fst snd app]. rewrite app_nil_r.
  unfold finished in H. cbn [set_leaf set_buf set_sep s_stack s_key s_sep s_leaf s_buf s_sur] in *.
  destruct (s_stack s) as [|[|] k] eqn:Es; (split; [split; reflexivity|]);
    unfold rest, key_ok; flds; rewrite ?Es; flds.
  - destruct (s_key s); [destruct H as (k' & E & _); discriminate|]. split; [discriminate|]. exact H.
  - destruct (s_key s); [destruct H as (k' & E & _); discriminate|]. split; [discriminate|]. exact H.
  - destruct (s_key s); cbn [negb].
    + destruct H as (k' & E & H). split; [discriminate|]. exact H.
    + split; [intros _; exists k; reflexivity|]. exact H.
Qed.

Lemma rest_start_array : tri rest start_array (fun s out => at_base s /\ rest s out).
Proof.
  unfold start_array. eapply tri_seq; [eapply tri_weak; [exact start_non_key_ok|exact rest_ready|intros ? ? X; exact X]|].
  intros s out [(Hk & E & H) Ek]. cbn. split; [split; reflexivity|].
  unfold rest, key_ok. cbn. split; [discriminate|]. split; [|reflexivity].
  rewrite Ek in H. apply ctx_open_arr, H.
Qed.
Lemma rest_start_object : tri rest start_object (fun s out => at_base s /\ rest s out).
Proof.
  unfold start_object. eapply tri_seq; [eapply tri_weak; [exact start_non_key_ok|exact rest_ready|intros ? ? X; exact X]|].
  intros s out [(Hk & E & H) Ek]. cbn. split; [split; reflexivity|].
  unfold rest, key_ok. cbn. split; [intros _; eexists; reflexivity|]. split; [|reflexivity].
  rewrite Ek in H. apply ctx_open_obj, H.
Qed.
Lemma rest_end_container : tri rest end_container (fun s out => at_base s /\ rest s out).
Proof.
  unfold end_container. eapply tri_seq; [|eapply tri_seq; [|exact end_value_ok]].
  - intros s out H. instantiate (1 := fun s out => ctx (s_stack s) After out).
    destruct H as [Hk H]. unfold key_ok in Hk.
    destruct (s_stack s) as [|[|] k] eqn:Es; cbn [fst snd set_stack s_stack]; rewrite ?Es.
    + rewrite app_nil_r. destruct (s_sep s); [exact H|]. destruct H as [H _]. left. exact H.
    + apply ctx_close_arr. destruct (s_sep s); [right; exact H|left; apply H].
    + destruct (s_key s) eqn:Ekey.
      * apply ctx_close_obj. destruct (s_sep s); [right; exact H|left; apply H].
      * destruct (s_sep s); [|destruct H as [_ H]; discriminate]. apply ctx_close_obj_null, H.
  - apply tri_upd. intros s out H. unfold finished. cbn. exact H.
Qed.

(** ** Strings *)
Definition in_string (s : sst) (out : bytes) : Prop :=
  exists p b, started s p /\ string_ok b /\ out = p ++ 34 :: b.

Lemma in_string_start s p : started s p -> in_string s (p ++ [34]).
Proof. intros H. exists p, []. split; [exact H|]. split; [constructor|reflexivity]. Qed.
Lemma in_string_end s out : in_string s out -> finished s (out ++ [34]).
Proof.
  intros (p & b & (Hk & E & H) & Hb & ->). unfold finished.
  replace ((p ++ 34 :: b) ++ [34]) with (p ++ quoted b) by (rewrite <- app_assoc; reflexivity).
  destruct (s_key s) eqn:Ek.
  - destruct (Hk Ek) as [k Es]. exists k. split; [exact Es|]. rewrite Es in *. apply ctx_key; assumption.
  - apply ctx_value; [exact H|]. exists (JStr b). split; [constructor; exact Hb|]. symmetry. apply app_nil_r.
Qed.
Lemma in_string_app s out b : in_string s out -> string_ok b -> in_string s (out ++ b).
Proof.
  intros (p & b0 & H & Hb & ->) H1. exists p, (b0 ++ b). split; [exact H|].
  split; [apply string_ok_app; assumption|]. rewrite <- app_assoc. reflexivity.
Qed.
Lemma in_string_same s s' out : same3 s s' -> in_string s out -> in_string s' out.
Proof. intros E (p & b & H & Hb & ->). exists p, b. split; [eapply started_same; eauto|auto]. Qed.

Lemma hex_char_ok d : d < 16 -> hex_ok (hex_char d).
Proof. intros H. exists d. unfold hex_digit, hex_char. destruct (d <? 10) eqn:E; lia. Qed.
Lemma u_escape_ok c : c < 0x10000 -> string_ok (u_escape c).
Proof.
  intros H. unfold u_escape. apply so_u; [| | | |constructor]; apply hex_char_ok; try (apply N.mod_lt; discriminate).
  apply N.div_lt_upper_bound; [discriminate|]. lia.
Qed.
Lemma high_ok l : Forall (fun c => 128 <= c) l -> string_ok l.
Proof. induction 1; constructor; auto; unfold cQuote, cBackslash; lia. Qed.
Lemma utf8_ok x : 32 <= x -> x <> 34 -> x <> 92 -> string_ok (utf8 x).
Proof.
  intros H1 H2 H3. unfold utf8. destruct (x <? 0x80) eqn:E.
  - apply so_raw; auto. constructor.
  - repeat match goal with |- string_ok (if ?b then _ else _) => destruct b end;
      apply high_ok; repeat constructor; try lia.
    all: match goal with |- context[?a + ?b] => generalize b; intros; lia end.
Qed.
Lemma sur_lead_small c : 0x10000 <= c < 0x110000 -> 0xD800 <= sur_lead c < 0xDC00.
Proof.
  intros H. unfold sur_lead. pose proof (N.div_le_lower_bound c 1024 64 ltac:(discriminate) ltac:(lia)).
  pose proof (N.div_lt_upper_bound c 1024 1088 ltac:(discriminate) ltac:(lia)). lia.
Qed.
Lemma sur_trail_small c : 0xDC00 <= sur_trail c < 0xE000.
Proof. unfold sur_trail. pose proof (N.mod_lt c 1024 ltac:(discriminate)). lia. Qed.

Lemma scalar_text_ok x : 32 <= x -> x <> 34 -> x <> 92 -> encodable x = true -> string_ok (scalar_text opts x).
Proof.
  intros H1 H2 H3 He. unfold scalar_text. destruct ((0x80 <=? x) && o_ascii opts).
  - destruct (x <? 0x10000) eqn:E; [apply u_escape_ok; lia|].
    unfold encodable in He. pose proof (sur_lead_small x ltac:(lia)). pose proof (sur_trail_small x).
    apply string_ok_app; apply u_escape_ok; lia.
  - apply utf8_ok; assumption.
Qed.
Lemma replacement_ok : string_ok (scalar_text opts kReplacement).
Proof. apply scalar_text_ok; unfold kReplacement; try lia; reflexivity. Qed.

(** a pending surrogate is a lead surrogate *)
Definition sur_ok (s : sst) : Prop := match s_sur s with Some h => u16_lead h = true | None => True end.

Definition only_sur (s s' : sst) : Prop :=
  same3 s s' /\ s_buf s' = s_buf s /\ s_leaf s' = s_leaf s.

Lemma esc2 c : simple_escape c <> None -> string_ok [92; c].
Proof. intros H. apply so_esc; [exact H|constructor]. Qed.

Lemma emit1_ok x s : sur_ok s ->
  string_ok (snd (emit_code_point1 opts x s)) /\ only_sur s (fst (emit_code_point1 opts x s)) /\
  sur_ok (fst (emit_code_point1 opts x s)).
Proof.
  intros Hs. unfold emit_code_point1.
  assert (R : only_sur s s) by (repeat split).
  repeat match goal with
  | |- context[if x =? ?n then _ else _] => destruct (x =? n) eqn:?;
      [cbn [fst snd]; split; [apply esc2; vm_compute; discriminate|split; assumption]|]
  end.
  destruct (x <? 0x20) eqn:E1; [cbn [fst snd]; split; [apply u_escape_ok; lia|split; assumption]|].
  destruct (u16_lead x) eqn:E2.
  { cbn [fst snd]. split; [constructor|]. split; [repeat split|]. exact E2. }
  destruct (u16_trail x) eqn:E3.
  { destruct (s_sur s) as [hi|] eqn:E4.
    - cbn [fst snd]. split; [|split; [repeat split|exact I]].
      unfold sur_ok in Hs. rewrite E4 in Hs. unfold u16_lead in Hs. unfold u16_trail in E3.
      assert (B : 0x10000 <= supplementary hi x < 0x110000) by (unfold supplementary; lia).
      pose proof (sur_lead_small _ B). pose proof (sur_trail_small (supplementary hi x)).
      destruct (o_ascii opts); [apply string_ok_app; apply u_escape_ok; lia|].
      apply utf8_ok; lia.
    - cbn [fst snd]. split; [apply replacement_ok|split; assumption]. }
  destruct (negb (encodable x)) eqn:E4; cbn [fst snd]; (split; [|split; assumption]).
  - apply replacement_ok.
  - apply scalar_text_ok; [lia|lia|lia|]. destruct (encodable x); [reflexivity|discriminate].
Qed.

Lemma emit_ok c s : sur_ok s ->
  string_ok (snd (emit_code_point opts c s)) /\ only_sur s (fst (emit_code_point opts c s)) /\
  sur_ok (fst (emit_code_point opts c s)).
Proof.
  intros Hs. destruct c as [x|]; [|repeat split; [constructor|exact Hs]].
  unfold emit_code_point, cond, andthen, upd, emit, nop.
  destruct (match s_sur s with Some _ => negb (u16_trail x) | None => false end).
  - destruct (emit1_ok x (set_sur None s) I) as (H1 & H2 & H3). cbn [app].
    destruct (emit_code_point1 opts x (set_sur None s)) as [s2 o2]. cbn [fst snd] in *.
    split; [apply string_ok_app; [apply replacement_ok|exact H1]|]. split; [|exact H3].
    destruct H2 as ((A & B & C) & D & E). repeat split; assumption.
  - destruct (emit1_ok x s Hs) as (H1 & H2 & H3).
    cbn [emit]. destruct (emit_code_point1 opts x s) as [s2 o2]. cbn [fst snd app] in *. auto.
Qed.

Lemma only_sur_trans s1 s2 s3 : only_sur s1 s2 -> only_sur s2 s3 -> only_sur s1 s3.
Proof. intros ((A & B & C) & D & E) ((A' & B' & C') & D' & E'). unfold only_sur, same3. repeat split; congruence. Qed.

Lemma emit_list_ok l : forall s, sur_ok s ->
  string_ok (snd (emit_list opts l s)) /\ only_sur s (fst (emit_list opts l s)) /\
  sur_ok (fst (emit_list opts l s)).
Proof.
  induction l as [|x l IH]; intros s Hs; [repeat split; [constructor|exact Hs]|].
  cbn [emit_list]. unfold andthen.
  destruct (emit_ok (Some x) s Hs) as (H1 & H2 & H3). destruct (emit_code_point opts (Some x) s) as [s1 o1].
  cbn [fst snd] in *. destruct (IH s1 H3) as (H4 & H5 & H6). destruct (emit_list opts l s1) as [s2 o2].
  cbn [fst snd] in *. split; [apply string_ok_app; assumption|]. split; [|exact H6].
  eapply only_sur_trans; eassumption.
Qed.

(** ** Numbers *)
Definition sign_ok (l : bytes) : Prop := l = [] \/ l = [45].
Definition exp_open (l : bytes) : Prop := l = [101] \/ l = [101; 43] \/ l = [101; 45].

(** what has been written of a number, by the buffer *)
Definition number_at (buf w : bytes) : Prop :=
  exists sg i, sign_ok sg /\ int_part i /\
  ((buf = [] /\ i <> [48] /\ w = sg ++ i) \/
   (buf = lit "." /\ w = sg ++ i ++ [46]) \/
   (buf = lit ".0" /\ exists f, digits1 f /\ w = sg ++ i ++ 46 :: f) \/
   exists f, frac_part f /\
   ((buf = lit ".0e" /\ w = sg ++ i ++ f ++ [101]) \/
    exists e, exp_open e /\
    ((buf = lit ".0e+" /\ w = sg ++ i ++ f ++ e) \/
     (buf = lit ".0e+0" /\ exists d, digits1 d /\ w = sg ++ i ++ f ++ e ++ d)))).

Definition buffered_at (buf : bytes) : Prop :=
  buf = lit "0" \/ starts_with buf (lit "0x") = true \/ starts_with buf (lit "0o") = true \/
  starts_with buf (lit "0b") = true.

Lemma bytes_eqb_eq a : forall b, bytes_eqb a b = true <-> a = b.
Proof.
  induction a as [|x a IH]; intros [|y b]; cbn [bytes_eqb]; try (split; [discriminate|discriminate]); [tauto|].
  rewrite andb_true_iff, IH, N.eqb_eq. split; [intros [-> ->]; reflexivity|]. intros [= -> ->]. auto.
Qed.
Lemma bytes_eqb_neq a b : bytes_eqb a b = false <-> a <> b.
Proof. rewrite <- bytes_eqb_eq. destruct (bytes_eqb a b); split; congruence. Qed.

Definition string_buf (l : leaf) (buf : bytes) : Prop :=
  buf = [] \/ buf = [92] \/ buf = [92; 13] \/
  (l = LTDouble /\ (buf = lit """" \/ buf = lit """""")) \/
  (l = LTSingle /\ (buf = lit "'" \/ buf = lit "''")) \/
  starts_with buf (lit "\u") = true \/ starts_with buf (lit "\o") = true \/
  starts_with buf (lit "\x") = true \/ starts_with buf (lit "\U") = true \/
  starts_with buf (lit "\{") = true.

Definition quote_buf (buf : bytes) : Prop :=
  buf = lit """" \/ buf = lit """""" \/ buf = lit "'" \/ buf = lit "''".

(** a word is being collected; after `, and after + and - where a value is
    expected, its separator is already written *)
Definition signed (s : sst) : bool :=
  (hd 0 (s_buf s) =? 96) || (((hd 0 (s_buf s) =? 45) || (hd 0 (s_buf s) =? 43)) && negb (s_key s)).
Definition word_at (s : sst) (out : bytes) : Prop :=
  if signed s then started s out else rest s out.
Definition word_buf (buf : bytes) : Prop := buf <> [] /\ hd 0 buf <> 34 /\ hd 0 buf <> 39.

Definition leaf_inv (s : sst) (out : bytes) : Prop :=
  match s_leaf s with
  | LBase =>
      (s_buf s = [] /\ rest s out) \/
      (quote_buf (s_buf s) /\ exists p, started s p /\ out = p ++ [34]) \/
      (word_buf (s_buf s) /\ word_at s out)
  | LUnquoted => s_buf s = [] /\ in_string s out
  | LDouble | LSingle | LBacktick | LTDouble | LTSingle =>
      string_buf (s_leaf s) (s_buf s) /\ in_string s out
  | LCommentLine | LCommentMulti => rest s out
  | LNumBuffered =>
      buffered_at (s_buf s) /\ exists p sg, started_value s p /\ sign_ok sg /\ out = p ++ sg
  | LNumDecimal => exists p w, started_value s p /\ number_at (s_buf s) w /\ out = p ++ w
  end.

Definition inv (s : sst) (out : bytes) : Prop := sur_ok s /\ leaf_inv s out.

(** what the next code point must not be *)
Definition allowed (s : sst) (c : option N) : Prop :=
  (match s_leaf s with LDouble | LSingle | LBacktick | LTDouble | LTSingle => True | _ => False end ->
   s_buf s = [92] -> forall x, c = Some x -> 32 <= x \/ x = 10 \/ x = 13) /\
  (s_leaf s = LBase -> s_buf s = lit "``" -> c <> None) /\
  (s_leaf s = LBase -> s_buf s = lit "-" \/ s_buf s = lit "+" -> s_key s = true ->
   forall x, c = Some x -> ~ (digit x \/ x = 46)).

Definition triR (P : sst -> bytes -> Prop) (r : rule) (Q : sst -> bytes -> Prop) : Prop :=
  forall s out, P s out -> Q (fst (fst (r s))) (out ++ snd (fst (r s))).
Lemma tri_consumed P a Q : tri P a Q -> triR P (consumed a) Q.
Proof. intros H s out HP. apply H, HP. Qed.
Lemma tri_again P a Q : tri P a Q -> triR P (again a) Q.
Proof. intros H s out HP. apply H, HP. Qed.

Lemma base_rest_inv s out : sur_ok s -> at_base s -> rest s out -> inv s out.
Proof. intros Hs [E1 E2] H. split; [exact Hs|]. unfold leaf_inv. rewrite E1. left. auto. Qed.

Lemma word_ready s out : word_at s out -> ready s out.
Proof. unfold word_at. destruct (signed s); [apply started_ready|apply rest_ready]. Qed.

Definition keeps_sur (a : act) : Prop := forall s, s_sur (fst (a s)) = s_sur s.
Lemma keeps_seq a b : keeps_sur a -> keeps_sur b -> keeps_sur (a ;; b).
Proof.
  intros Ha Hb s. unfold andthen. specialize (Ha s). destruct (a s) as [s1 o1]. specialize (Hb s1).
  destruct (b s1) as [s2 o2]. flds. congruence.
Qed.
Lemma keeps_emit b : keeps_sur (emit b).
Proof. intros s. reflexivity. Qed.
Lemma keeps_start_value : keeps_sur start_value.
Proof. intros s. reflexivity. Qed.
Lemma keeps_state_buf l b : keeps_sur (set_state_buf l b).
Proof. intros s. reflexivity. Qed.
Lemma keeps_end_value : keeps_sur end_value.
Proof. intros s. unfold end_value, andthen, set_state_buf, upd. flds. destruct (s_stack s) as [|[|] k]; reflexivity. Qed.
Lemma keeps_start_array : keeps_sur start_array.
Proof.
  intros s. unfold start_array, start_non_key_value, cond, nop, andthen, set_state_buf, upd, emit, start_value. flds.
  destruct (s_key s); reflexivity.
Qed.
Lemma keeps_start_object : keeps_sur start_object.
Proof.
  intros s. unfold start_object, start_non_key_value, cond, nop, andthen, set_state_buf, upd, emit, start_value. flds.
  destruct (s_key s); reflexivity.
Qed.
Lemma keeps_end_container : keeps_sur end_container.
Proof.
  apply keeps_seq; [|apply keeps_seq; [intros s; reflexivity|exact keeps_end_value]].
  intros s. destruct (s_stack s) as [|[|] k]; reflexivity.
Qed.

Lemma with_sur P a Q : tri P a Q -> keeps_sur a ->
  tri (fun s o => sur_ok s /\ P s o) a (fun s o => sur_ok s /\ Q s o).
Proof. intros H Hk s out [Hs HP]. split; [unfold sur_ok; rewrite Hk; exact Hs|]. apply H, HP. Qed.

Definition open_string (s : sst) (o : bytes) : Prop := sur_ok s /\ in_string s o.

Definition binv (s : sst) (o : bytes) : Prop := inv s o /\ at_base s.
Lemma end_value_inv : tri (fun s o => sur_ok s /\ finished s o) end_value binv.
Proof.
  eapply tri_weak; [apply (with_sur _ _ _ end_value_ok keeps_end_value)|auto|].
  intros s o [H1 [H2 H3]]. split; [apply base_rest_inv; assumption|exact H2].
Qed.
Lemma string_end_ok : tri open_string (string_end opts) (fun s o => sur_ok s /\ finished s o).
Proof.
  intros s out [Hs H]. unfold string_end, cond, andthen, upd, emit, nop.
  destruct (s_sur s) eqn:E; flds.
  - split; [exact I|]. rewrite app_assoc. apply in_string_end, in_string_app; [|apply replacement_ok].
    eapply in_string_same; [|exact H]. repeat split.
  - split; [exact Hs|]. apply in_string_end, H.
Qed.
Lemma end_string_ok : tri open_string (end_string opts) binv.
Proof. eapply tri_seq; [exact string_end_ok|exact end_value_inv]. Qed.

Lemma start_string_ok : tri (fun s o => sur_ok s /\ ready s o) start_string open_string.
Proof.
  eapply tri_seq; [apply (with_sur _ _ _ start_value_ok keeps_start_value)|].
  apply tri_emit. intros s o [Hs H]. split; [exact Hs|]. apply in_string_start, H.
Qed.
Lemma emit_buffer_ok : tri open_string (emit_buffer opts) open_string.
Proof.
  intros s out [Hs H]. unfold emit_buffer. destruct (emit_list_ok (s_buf s) s Hs) as (H1 & (H2 & _) & H3).
  split; [exact H3|]. apply in_string_app; [|exact H1]. eapply in_string_same; eassumption.
Qed.

Lemma atom_vtext t : forall a, In (a, t) (atoms opts) -> vtext t.
Proof.
  intros a H. unfold atoms in H. apply in_app_or in H.
  destruct H as [H|H].
  - cbn [In] in H. unfold vtext.
    destruct H as [E|[E|[E|[E|[]]]]]; apply pair_equal_spec in E; destruct E as [_ <-];
      [exists JTrue|exists JFalse|exists JNull|exists JNull]; (split; [constructor|reflexivity]).
  - destruct (o_nan opts) eqn:En; [|destruct H].
    assert (L : nan_literal t).
    { cbn [In] in H. unfold nan_literal.
      destruct H as [E|[E|[E|[E|[E|[E|[]]]]]]]; apply pair_equal_spec in E; destruct E as [_ <-]; auto. }
    exists (JNum t). split; [constructor; right; auto|]. symmetry. apply app_nil_r.
Qed.

Lemma emit_atom_ok t a : In (a, t) (atoms opts) ->
  tri (fun s o => sur_ok s /\ (ready s o /\ s_key s = false)) (emit_atom t) binv.
Proof.
  intros Ht. unfold emit_atom.
  apply (tri_seq _ _ (fun s o => sur_ok s /\ (started s o /\ s_key s = false))).
  { apply with_sur; [|exact keeps_start_value]. intros s o [H Hk]. split; [apply start_value_ok, H|]. exact Hk. }
  eapply tri_seq; [|exact end_value_inv]. apply tri_emit. intros s o (Hs & (H1 & H2 & H3) & Hk).
  split; [exact Hs|]. unfold finished. rewrite Hk in *. apply ctx_value; [exact H3|]. eapply atom_vtext, Ht.
Qed.

Lemma inv_base_buf s out b : sur_ok s -> word_buf b -> s_leaf s = LBase ->
  word_at (set_buf b s) out -> inv (set_buf b s) out.
Proof.
  intros Hs Hb El H. split; [exact Hs|]. unfold leaf_inv. flds. rewrite El. right. right. auto.
Qed.

Lemma set_state_ok (P : sst -> bytes -> Prop) l b : (forall s o, P s o -> inv (set_leaf l (set_buf b s)) o) -> tri P (set_state_buf l b) inv.
Proof. intros H. apply tri_upd. exact H. Qed.

Lemma is_true c a : is c a = true -> c = Some (N_of_ascii a).
Proof. destruct c as [x|]; cbn [is]; [|discriminate]. intros H. apply N.eqb_eq in H. subst. reflexivity. Qed.
Lemma within_true c lo hi : within c lo hi = true -> exists x, c = Some x /\ lo <= x <= hi.
Proof. destruct c as [x|]; cbn [within]; [|discriminate]. intros H. exists x. split; [reflexivity|]. lia. Qed.

Lemma int_digit d : 49 <= d <= 57 -> int_part [d].
Proof. intros H. right. exists d, []. auto. Qed.

(** number in progress *)
Lemma num_inv s p w : sur_ok s -> started_value s p -> s_leaf s = LNumDecimal -> number_at (s_buf s) w ->
  inv s (p ++ w).
Proof. intros Hs H El Hw. split; [exact Hs|]. unfold leaf_inv. rewrite El. exists p, w. auto. Qed.
Lemma buf_inv s p sg : sur_ok s -> started_value s p -> s_leaf s = LNumBuffered -> buffered_at (s_buf s) -> sign_ok sg ->
  inv s (p ++ sg).
Proof. intros Hs H El Hw Hsg. split; [exact Hs|]. unfold leaf_inv. rewrite El. split; [exact Hw|]. exists p, sg. auto. Qed.
Lemma started_value_same s s' p : same3 s s' -> started_value s p -> started_value s' p.
Proof. intros E [H Hk]. split; [eapply started_same; eassumption|]. destruct E as (_ & _ & E). congruence. Qed.

Lemma base_word_ok s out :
  sur_ok s -> s_leaf s = LBase -> word_buf (s_buf s) -> word_at s out ->
  inv (fst (fst (base_word opts s))) (out ++ snd (fst (base_word opts s))).
Proof.
  intros Hs El Hb Hw. unfold base_word.
  destruct (if s_key s then None else full_atom opts (s_buf s)) as [t|] eqn:Ea.
  - destruct (s_key s) eqn:Ek; [discriminate|]. unfold full_atom in Ea.
    destruct (find _ _) as [[a t']|] eqn:Ef; [|discriminate]. injection Ea as ->.
    apply find_some in Ef. destruct Ef as [Hin _].
    unfold consumed. flds.
    assert (T : tri (fun s o => sur_ok s /\ ready s o /\ s_key s = false) (emit_atom t ;; clear_buffer) inv).
    { eapply tri_seq; [eapply emit_atom_ok, Hin|].
      apply tri_upd. intros s1 o1 [[H1 H2] [H3 H4]]. split; [exact H1|].
      unfold leaf_inv in *. flds. rewrite H3 in *. rewrite H4 in H2. left. split; [reflexivity|].
      destruct H2 as [[_ H2]|[[[H2|[H2|[H2|H2]]] _]|[[H2 _] _]]]; try discriminate; [|congruence].
      eapply rest_same; [|exact H2]. repeat split. }
    apply T. split; [exact Hs|]. split; [apply word_ready, Hw|exact Ek].
  - destruct (negb (s_key s) && partial_atom opts (s_buf s)).
    { unfold consumed, nop, emit. flds. rewrite app_nil_r. split; [exact Hs|]. unfold leaf_inv. rewrite El. right. right. auto. }
    destruct (buf_is s (lit "b""") || buf_is s (lit "b'") || buf_is s (lit "u""") || buf_is s (lit "u'")) eqn:Eb.
    { unfold again, set_state_buf, upd. flds. rewrite app_nil_r. split; [exact Hs|]. unfold leaf_inv. flds. left.
      split; [reflexivity|]. assert (R : rest s out).
      { unfold word_at, signed in Hw. unfold buf_is in Eb. rewrite !orb_true_iff, !bytes_eqb_eq in Eb.
        destruct Eb as [[[Eb|Eb]|Eb]|Eb]; rewrite Eb in Hw; exact Hw. }
      eapply rest_same; [|exact R]. repeat split. }
    unfold consumed. flds.
    assert (T : tri (fun s o => sur_ok s /\ ready s o) (start_string ;; emit_buffer opts ;; set_state_buf LUnquoted []) inv).
    { eapply tri_seq; [exact start_string_ok|]. eapply tri_seq; [exact emit_buffer_ok|].
      apply set_state_ok. intros s1 o1 [H1 H2]. split; [exact H1|]. unfold leaf_inv. flds. split; [reflexivity|].
      eapply in_string_same; [|exact H2]. repeat split. }
    apply T. split; [exact Hs|]. apply word_ready, Hw.
Qed.

Lemma rest_inv_leaf s out l : sur_ok s -> rest s out ->
  match l with LBase | LCommentLine | LCommentMulti => True | _ => False end ->
  inv (set_leaf l (set_buf [] s)) out.
Proof.
  intros Hs H Hl. split; [exact Hs|].
  assert (R : rest (set_leaf l (set_buf [] s)) out) by (eapply rest_same; [|exact H]; repeat split).
  unfold leaf_inv. flds. destruct l; try destruct Hl; try exact R. left. split; [reflexivity|exact R].
Qed.

(** A triple used at a state where its precondition holds. *)
Lemma use_tri P a Q s out : tri P a Q -> P s out -> Q (fst (a s)) (out ++ snd (a s)).
Proof. intros H. apply H. Qed.

Lemma end_container_inv : tri (fun s o => sur_ok s /\ rest s o) end_container inv.
Proof.
  eapply tri_weak; [apply (with_sur _ _ _ rest_end_container keeps_end_container)|auto|].
  intros s o (H1 & H2 & H3). apply base_rest_inv; assumption.
Qed.
Lemma start_array_inv : tri (fun s o => sur_ok s /\ rest s o) start_array inv.
Proof.
  eapply tri_weak; [apply (with_sur _ _ _ rest_start_array keeps_start_array)|auto|].
  intros s o (H1 & H2 & H3). apply base_rest_inv; assumption.
Qed.
Lemma start_object_inv : tri (fun s o => sur_ok s /\ rest s o) start_object inv.
Proof.
  eapply tri_weak; [apply (with_sur _ _ _ rest_start_object keeps_start_object)|auto|].
  intros s o (H1 & H2 & H3). apply base_rest_inv; assumption.
Qed.

Lemma base_ok c s out : inv s out -> s_leaf s = LBase -> allowed s c ->
  inv (fst (fst (base_rules opts c s))) (out ++ snd (fst (base_rules opts c s))).
Proof.
  intros [Hs HL] El (_ & Ha2 & Ha3). unfold leaf_inv in HL. rewrite El in HL.
  unfold base_rules. unfold buf_is. destruct (bytes_eqb (s_buf s) []) eqn:E0.
  - apply bytes_eqb_eq in E0.
    assert (R : rest s out).
    { destruct HL as [[_ H]|[[[H|[H|[H|H]]] _]|[[H _] _]]]; [exact H| | | | |]; rewrite E0 in H; [discriminate..|congruence]. }
    clear HL. pose proof (rest_ready _ _ R) as Rd.
    destruct (match c with None => true | Some x => json5_space x || is c "," || is c ":" end) eqn:C0.
    { cbn. rewrite app_nil_r. apply base_rest_inv; [exact Hs|split; assumption|exact R]. }
    destruct c as [x|]; [|discriminate].
    destruct (is (Some x) "#") eqn:C1.
    { cbn. rewrite app_nil_r. apply rest_inv_leaf; auto. }
    destruct (is (Some x) "/") eqn:C2.
    { apply is_true in C2. cbn. rewrite app_nil_r, E0. injection C2 as ->.
      apply inv_base_buf; [exact Hs| |exact El|]; [split; [discriminate|split; discriminate]|].
      unfold word_at, signed. flds. cbn [hd app N.eqb Pos.eqb orb andb].
      eapply rest_same; [|exact R]. repeat split. }
    destruct (is (Some x) "]" || is (Some x) "}" || is (Some x) ")") eqn:C3.
    { apply (end_container_inv s out (conj Hs R)). }
    destruct (is (Some x) "{" && below_max opts s).
    { apply (start_object_inv s out (conj Hs R)). }
    destruct ((is (Some x) "[" || is (Some x) "(") && below_max opts s).
    { apply (start_array_inv s out (conj Hs R)). }
    destruct (is (Some x) """" || is (Some x) "'") eqn:C4.
    { assert (T : tri (fun s o => sur_ok s /\ (s_leaf s = LBase /\ s_buf s = [] /\ ready s o))
                      (start_string ;; append_code_point (Some x)) inv).
      { unfold start_string.
        apply (tri_seq _ _ (fun s o => sur_ok s /\ (s_leaf s = LBase /\ s_buf s = [] /\ exists p, started s p /\ o = p ++ [34]))).
        - apply with_sur; [|apply keeps_seq; [exact keeps_start_value|apply keeps_emit]].
          eapply tri_seq with (R := fun s o => s_leaf s = LBase /\ s_buf s = [] /\ started s o).
          + intros s1 o1 (H1 & H2 & H3). split; [exact H1|]. split; [exact H2|]. apply start_value_ok, H3.
          + apply tri_emit. intros s1 o1 (H1 & H2 & H3). split; [exact H1|]. split; [exact H2|]. exists o1. auto.
        - apply tri_upd. intros s1 o1 (H0 & H1 & H2 & p & H3 & H4). split; [exact H0|].
          unfold leaf_inv. flds. rewrite H1, H2. right. left. split.
          + apply orb_true_iff in C4. unfold quote_buf. destruct C4 as [C4|C4]; apply is_true in C4; injection C4 as ->; auto.
          + exists p. split; [|exact H4]. eapply started_same; [|exact H3]. repeat split. }
      apply T. auto. }
    destruct (is (Some x) "`") eqn:C5.
    { assert (T : tri (fun s o => sur_ok s /\ (s_leaf s = LBase /\ s_buf s = [] /\ ready s o))
                      (start_value ;; append_str (lit "`")) inv).
      { apply (tri_seq _ _ (fun s o => sur_ok s /\ (s_leaf s = LBase /\ s_buf s = [] /\ started s o))).
        - apply with_sur; [|exact keeps_start_value]. intros s1 o1 (H1 & H2 & H3).
          split; [exact H1|]. split; [exact H2|]. apply start_value_ok, H3.
        - apply tri_upd. intros s1 o1 (H0 & H1 & H2 & H3). apply inv_base_buf; [exact H0| |exact H1|];
            rewrite H2; [split; [discriminate|split; discriminate]|].
          unfold word_at, signed. flds. cbn [hd app N.eqb Pos.eqb orb andb lit N_of_ascii].
          eapply started_same; [|exact H3]. repeat split. }
      apply T. auto. }
    destruct (negb (s_key s) && (is (Some x) "-" || is (Some x) "+")) eqn:C6.
    { assert (T : tri (fun s o => sur_ok s /\ (s_leaf s = LBase /\ s_buf s = [] /\ s_key s = false /\ ready s o))
                      (start_value ;; append_code_point (Some x)) inv).
      { apply (tri_seq _ _ (fun s o => sur_ok s /\ (s_leaf s = LBase /\ s_buf s = [] /\ s_key s = false /\ started s o))).
        - apply with_sur; [|exact keeps_start_value]. intros s1 o1 (H1 & H2 & H2' & H3).
          split; [exact H1|]. split; [exact H2|]. split; [exact H2'|]. apply start_value_ok, H3.
        - apply tri_upd. intros s1 o1 (H0 & H1 & H2 & H2' & H3). 
          apply andb_true_iff in C6. destruct C6 as [_ C6]. apply orb_true_iff in C6.
          assert (X : x = 45 \/ x = 43) by (destruct C6 as [C6|C6]; apply is_true in C6; injection C6; auto).
          apply inv_base_buf; [exact H0| |exact H1|]; rewrite H2; cbn [app].
          + split; [discriminate|]. cbn [hd]. clear -X. lia.
          + unfold word_at, signed. flds. rewrite H2'. cbn [hd negb].
            replace ((x =? 96) || ((x =? 45) || (x =? 43)) && true) with true by (clear -X; lia).
            eapply started_same; [|exact H3]. repeat split. }
      apply T. split; [exact Hs|]. split; [exact El|]. split; [exact E0|]. split; [|exact Rd].
      destruct (s_key s); [discriminate|reflexivity]. }
    destruct (s_key s) eqn:Ek.
    { cbn [negb andb]. unfold consumed, append_code_point, upd. flds. rewrite app_nil_r, E0. cbn [app].
      assert (Hx : x <> 34 /\ x <> 39 /\ x <> 96).
      { repeat split; intros ->; discriminate. }
      apply inv_base_buf; [exact Hs|split; [discriminate|cbn [hd]; clear -Hx; lia]|exact El|].
      unfold word_at, signed. flds. rewrite Ek. cbn [hd negb]. rewrite andb_false_r.
      replace ((x =? 96) || false) with false by (clear -Hx; lia). eapply rest_same; [|exact R]. repeat split. }
    assert (SV : tri (fun s o => sur_ok s /\ (s_key s = false /\ ready s o)) start_value
                     (fun s o => sur_ok s /\ (s_key s = false /\ started s o))).
    { apply with_sur; [|exact keeps_start_value]. intros s1 o1 (H1 & H2). split; [exact H1|]. apply start_value_ok, H2. }
    cbn [negb andb].
    destruct (is (Some x) "0") eqn:C7.
    { assert (T : tri (fun s o => sur_ok s /\ (s_key s = false /\ ready s o))
                      (start_value ;; set_state_buf LNumBuffered (lit "0")) inv).
      { eapply tri_seq; [exact SV|]. apply set_state_ok. intros s1 o1 (H0 & H1 & H2).
        rewrite <- (app_nil_r o1). apply buf_inv; auto; [|reflexivity..|left; reflexivity|left; reflexivity].
        split; [|exact H1]. eapply started_same; [|exact H2]. repeat split. }
      apply T. auto. }
    destruct (is (Some x) ".") eqn:C8.
    { assert (T : tri (fun s o => sur_ok s /\ (s_key s = false /\ ready s o))
                      (start_value ;; emit (lit "0.") ;; set_state_buf LNumDecimal (lit ".")) inv).
      { eapply tri_seq; [exact SV|]. intros s1 o1 (H0 & H1 & H2). cbn.
        apply num_inv; auto.
        - split; [|exact H1]. eapply started_same; [|exact H2]. repeat split.
        - exists [], [48]. split; [left; reflexivity|]. split; [left; reflexivity|]. right. left. split; reflexivity. }
      apply T. auto. }
    destruct (within (Some x) 49 57) eqn:C9.
    { assert (T : tri (fun s o => sur_ok s /\ (s_key s = false /\ ready s o))
                      (start_value ;; emit_raw (Some x) ;; set_state_buf LNumDecimal []) inv).
      { eapply tri_seq; [exact SV|]. intros s1 o1 (H0 & H1 & H2). cbn -[utf8]. rewrite app_nil_r.
        apply within_true in C9. destruct C9 as (x' & Ex & Hx). injection Ex as <-.
        replace (utf8 x) with [x] by (unfold utf8; replace (x <? 128) with true by (clear -Hx; lia); reflexivity).
        apply num_inv; auto.
        - split; [|exact H1]. eapply started_same; [|exact H2]. repeat split.
        - exists [], [x]. split; [left; reflexivity|]. split; [apply int_digit; exact Hx|]. left. split; [reflexivity|]. split; [|reflexivity]. clear -Hx. intros [= E]. lia. }
      apply T. auto. }
    unfold consumed, append_code_point, upd. flds. rewrite app_nil_r, E0. cbn [app].
    assert (Hx : x <> 34 /\ x <> 39 /\ x <> 96 /\ x <> 45 /\ x <> 43).
    { repeat split; intros ->; discriminate. }
    apply inv_base_buf; [exact Hs|split; [discriminate|cbn [hd]; clear -Hx; lia]|exact El|].
    unfold word_at, signed. flds. cbn [hd negb].
    replace ((x =? 96) || ((x =? 45) || (x =? 43)) && negb (s_key s)) with false by (clear -Hx; lia).
    eapply rest_same; [|exact R]. repeat split.
  - apply bytes_eqb_neq in E0.
    destruct HL as [[H _]|[[Hq (p & Hp & ->)]|[Hb Hw]]]; [congruence| |].
    + (* a quote was seen *)
      assert (IS : forall l, match l with LDouble | LSingle | LTDouble | LTSingle => True | _ => False end ->
                   inv (set_leaf l (set_buf [] s)) (p ++ [34])).
      { intros l Hl. split; [exact Hs|]. assert (R : in_string (set_leaf l (set_buf [] s)) (p ++ [34])).
        { apply in_string_start. eapply started_same; [|exact Hp]. repeat split. }
        unfold leaf_inv. flds. destruct l; destruct Hl; (split; [left; reflexivity|exact R]). }
      assert (Q1 : forall b, quote_buf b -> inv (set_buf b s) (p ++ [34])).
      { intros b Hb. split; [exact Hs|]. unfold leaf_inv. flds. rewrite El. right. left. split; [exact Hb|].
        exists p. split; [|reflexivity]. eapply started_same; [|exact Hp]. repeat split. }
      assert (EV : inv (fst ((emit [34] ;; end_value) s)) ((p ++ [34]) ++ snd ((emit [34] ;; end_value) s))).
      { assert (T : tri open_string (emit [34] ;; end_value) binv).
        { eapply tri_seq; [|exact end_value_inv]. apply tri_emit. intros s1 o1 [H1 H2]. split; [exact H1|].
          apply in_string_end, H2. }
        destruct (T s (p ++ [34])) as [X _]; [|exact X]. split; [exact Hs|]. apply in_string_start, Hp. }
      unfold buf_is. destruct Hq as [Eb|[Eb|[Eb|Eb]]]; rewrite Eb.
      * cbn [bytes_eqb lit N_of_ascii N_of_digits N.add Pos.add N.mul Pos.mul N.eqb Pos.eqb andb].
        destruct (is c """").
        -- cbn. rewrite app_nil_r, Eb. apply Q1. right. left. reflexivity.
        -- cbn. rewrite app_nil_r. apply IS. exact I.
      * cbn [bytes_eqb lit N_of_ascii N_of_digits N.add Pos.add N.mul Pos.mul N.eqb Pos.eqb andb].
        destruct (is c """").
        -- cbn. rewrite app_nil_r. apply IS. exact I.
        -- exact EV.
      * cbn [bytes_eqb lit N_of_ascii N_of_digits N.add Pos.add N.mul Pos.mul N.eqb Pos.eqb andb].
        destruct (is c "'").
        -- cbn. rewrite app_nil_r, Eb. apply Q1. right. right. right. reflexivity.
        -- cbn. rewrite app_nil_r. apply IS. exact I.
      * cbn [bytes_eqb lit N_of_ascii N_of_digits N.add Pos.add N.mul Pos.mul N.eqb Pos.eqb andb].
        destruct (is c "'").
        -- cbn. rewrite app_nil_r. apply IS. exact I.
        -- exact EV.
    + (* a word *)
      unfold buf_is in *.
      destruct (bytes_eqb (s_buf s) (lit "/") && is c "/") eqn:B1.
      { apply andb_true_iff in B1. destruct B1 as [B1 _]. apply bytes_eqb_eq in B1.
        unfold word_at, signed in Hw. rewrite B1 in Hw. cbn. rewrite app_nil_r. apply rest_inv_leaf; auto. }
      destruct (bytes_eqb (s_buf s) (lit "/") && is c "*") eqn:B2.
      { apply andb_true_iff in B2. destruct B2 as [B2 _]. apply bytes_eqb_eq in B2.
        unfold word_at, signed in Hw. rewrite B2 in Hw. cbn. rewrite app_nil_r. apply rest_inv_leaf; auto. }
      destruct (bytes_eqb (s_buf s) (lit """")) eqn:B3.
      { apply bytes_eqb_eq in B3. destruct Hb as (_ & Hb & _). rewrite B3 in Hb. cbn in Hb. congruence. }
      destruct (bytes_eqb (s_buf s) (lit "'")) eqn:B4.
      { apply bytes_eqb_eq in B4. destruct Hb as (_ & _ & Hb). rewrite B4 in Hb. cbn in Hb. congruence. }
      destruct (bytes_eqb (s_buf s) (lit "`")) eqn:B5.
      { apply bytes_eqb_eq in B5. unfold word_at, signed in Hw. rewrite B5 in Hw. cbn [hd lit] in Hw. change (started s out) in Hw.
        destruct (is c "`").
        - cbn. rewrite app_nil_r, B5. apply inv_base_buf; [exact Hs|split; [discriminate|split; discriminate]|exact El|].
          unfold word_at, signed. flds. eapply started_same; [|exact Hw]. repeat split.
        - cbn. split; [exact Hs|]. unfold leaf_inv. flds. split; [left; reflexivity|].
          apply in_string_start. eapply started_same; [|exact Hw]. repeat split. }
      destruct (bytes_eqb (s_buf s) (lit """""")) eqn:B6.
      { apply bytes_eqb_eq in B6. destruct Hb as (_ & Hb & _). rewrite B6 in Hb. cbn in Hb. congruence. }
      destruct (bytes_eqb (s_buf s) (lit "''")) eqn:B7.
      { apply bytes_eqb_eq in B7. destruct Hb as (_ & _ & Hb). rewrite B7 in Hb. cbn in Hb. congruence. }
      destruct (bytes_eqb (s_buf s) (lit "``") && match c with None => true | _ => false end) eqn:B8.
      { apply andb_true_iff in B8. destruct B8 as [B8 Hc]. apply bytes_eqb_eq in B8. destruct c; [discriminate|].
        destruct (Ha2 El B8 eq_refl). }
      (* a sign and a digit *)
      assert (SG : (s_buf s = lit "-" \/ s_buf s = lit "+") ->
                   (exists x, c = Some x /\ (digit x \/ x = 46)) -> started_value s out).
      { intros Hbuf (x & -> & Hx). destruct (s_key s) eqn:Ek.
        - destruct (Ha3 El Hbuf eq_refl x eq_refl Hx).
        - split; [|exact Ek]. unfold word_at, signed in Hw. rewrite Ek in Hw. destruct Hbuf as [B|B]; rewrite B in Hw; exact Hw. }
      assert (UR : forall x, 49 <= x <= 57 -> utf8 x = [x]).
      { intros x Hx. unfold utf8. replace (x <? 128) with true by (clear -Hx; lia). reflexivity. }
      assert (SV : forall l b, started_value s out -> started_value (set_leaf l (set_buf b s)) out).
      { intros l b H. eapply started_value_same; [|exact H]. repeat split. }
      destruct (bytes_eqb (s_buf s) (lit "-") && is c "0") eqn:B9.
      { apply andb_true_iff in B9. destruct B9 as [B9 Hc]. apply bytes_eqb_eq in B9. apply is_true in Hc. cbn.
        apply buf_inv; [exact Hs| |reflexivity|left; reflexivity|right; reflexivity].
        apply SV, SG; [auto|]. exists 48. split; [exact Hc|]. left. unfold digit. clear; lia. }
      destruct (bytes_eqb (s_buf s) (lit "-") && within c 49 57) eqn:B10.
      { apply andb_true_iff in B10. destruct B10 as [B10 Hc]. apply bytes_eqb_eq in B10. apply within_true in Hc.
        destruct Hc as (x & -> & Hx). cbn -[utf8]. rewrite (UR x Hx). rewrite app_nil_r.
        apply num_inv; [exact Hs| |reflexivity|].
        - apply SV, SG; [auto|]. exists x. split; [reflexivity|]. left. unfold digit. clear -Hx; lia.
        - exists [45], [x]. split; [right; reflexivity|]. split; [apply int_digit, Hx|]. left. split; [reflexivity|]. split; [|reflexivity]. clear -Hx. intros [= E]. lia. }
      destruct (bytes_eqb (s_buf s) (lit "-") && is c ".") eqn:B11.
      { apply andb_true_iff in B11. destruct B11 as [B11 Hc]. apply bytes_eqb_eq in B11. apply is_true in Hc. cbn.
        apply num_inv; [exact Hs| |reflexivity|].
        - apply SV, SG; [auto|]. exists 46. auto.
        - exists [45], [48]. split; [right; reflexivity|]. split; [left; reflexivity|]. right. left. split; reflexivity. }
      destruct (bytes_eqb (s_buf s) (lit "+") && is c "0") eqn:B12.
      { apply andb_true_iff in B12. destruct B12 as [B12 Hc]. apply bytes_eqb_eq in B12. apply is_true in Hc. cbn.
        apply buf_inv; [exact Hs| |reflexivity|left; reflexivity|left; reflexivity].
        apply SV, SG; [auto|]. exists 48. split; [exact Hc|]. left. unfold digit. clear; lia. }
      destruct (bytes_eqb (s_buf s) (lit "+") && within c 49 57) eqn:B13.
      { apply andb_true_iff in B13. destruct B13 as [B13 Hc]. apply bytes_eqb_eq in B13. apply within_true in Hc.
        destruct Hc as (x & -> & Hx). cbn -[utf8]. rewrite (UR x Hx). rewrite app_nil_r.
        apply num_inv; [exact Hs| |reflexivity|].
        - apply SV, SG; [auto|]. exists x. split; [reflexivity|]. left. unfold digit. clear -Hx; lia.
        - exists [], [x]. split; [left; reflexivity|]. split; [apply int_digit, Hx|]. left. split; [reflexivity|]. split; [|reflexivity]. clear -Hx. intros [= E]. lia. }
      destruct (bytes_eqb (s_buf s) (lit "+") && is c ".") eqn:B14.
      { apply andb_true_iff in B14. destruct B14 as [B14 Hc]. apply bytes_eqb_eq in B14. apply is_true in Hc. cbn.
        apply num_inv; [exact Hs| |reflexivity|].
        - apply SV, SG; [auto|]. exists 46. auto.
        - exists [], [48]. split; [left; reflexivity|]. split; [left; reflexivity|]. right. left. split; reflexivity. }
      destruct (negb (unquoted_next opts s c)) eqn:B15.
      { assert (T : tri (fun s o => sur_ok s /\ ready s o) (start_string ;; emit_buffer opts ;; end_string opts) binv).
        { eapply tri_seq; [exact start_string_ok|]. eapply tri_seq; [exact emit_buffer_ok|exact end_string_ok]. }
        destruct (T s out) as [X _]; [|exact X]. split; [exact Hs|]. apply word_ready, Hw. }
      unfold append_code_point, upd. destruct c as [x|]; [|discriminate].
      assert (Hhd : hd 0 (s_buf s ++ [x]) = hd 0 (s_buf s)) by (destruct (s_buf s); [congruence|reflexivity]).
      apply base_word_ok.
      * exact Hs.
      * exact El.
      * flds. destruct Hb as (Hb1 & Hb2 & Hb3). split; [destruct (s_buf s); discriminate|]. rewrite Hhd. auto.
      * unfold word_at, signed in *. flds. rewrite Hhd.
        destruct ((hd 0 (s_buf s) =? 96) || ((hd 0 (s_buf s) =? 45) || (hd 0 (s_buf s) =? 43)) && negb (s_key s)).
        -- eapply started_same; [|exact Hw]. repeat split.
        -- eapply rest_same; [|exact Hw]. repeat split.
Qed.

(** ** Comments *)
Lemma comment_ok c s out : inv s out ->
  match s_leaf s with LCommentLine | LCommentMulti => True | _ => False end ->
  inv (fst (fst (comment_rules c s))) (out ++ snd (fst (comment_rules c s))).
Proof.
  intros [Hs HL] El. unfold leaf_inv in HL.
  assert (R : rest s out) by (destruct (s_leaf s); destruct El; exact HL). clear HL.
  assert (K : inv s out) by (split; [exact Hs|]; unfold leaf_inv; destruct (s_leaf s); destruct El; exact R).
  assert (B : forall b, inv (set_buf b s) out).
  { intros b. split; [exact Hs|]. assert (R' : rest (set_buf b s) out) by (eapply rest_same; [|exact R]; repeat split).
    unfold leaf_inv. flds. destruct (s_leaf s); destruct El; exact R'. }
  assert (Z : inv (set_leaf LBase (set_buf [] s)) out) by (apply rest_inv_leaf; auto).
  unfold comment_rules. destruct (s_leaf s); destruct El.
  - destruct (json5_eol c); cbn; rewrite app_nil_r; assumption.
  - destruct (buf_is s []).
    + destruct (is c "*") eqn:E; cbn; rewrite app_nil_r; [|exact K]. destruct c; [apply B|exact K].
    + destruct (is c "/"); cbn; rewrite app_nil_r; [exact Z|apply B].
Qed.

(** ** Strings *)
Definition quoted_leaf (l : leaf) : Prop :=
  match l with LDouble | LSingle | LBacktick | LTDouble | LTSingle => True | _ => False end.

Lemma string_inv l s out : quoted_leaf l -> s_leaf s = l -> sur_ok s -> string_buf l (s_buf s) -> in_string s out -> inv s out.
Proof.
  intros Hq El Hs Hb H. split; [exact Hs|]. unfold leaf_inv. rewrite El.
  destruct l; destruct Hq; auto.
Qed.

(** emit something, then clear the buffer *)
Definition clears (a : act) : Prop := forall s, sur_ok s ->
  string_ok (snd (a s)) /\ same3 s (fst (a s)) /\ s_leaf (fst (a s)) = s_leaf s /\
  s_buf (fst (a s)) = [] /\ sur_ok (fst (a s)).
Lemma clears_inv a l s out : clears a -> quoted_leaf l -> s_leaf s = l -> sur_ok s -> in_string s out ->
  inv (fst (a s)) (out ++ snd (a s)).
Proof.
  intros Ha Hq El Hs H. destruct (Ha s Hs) as (H1 & H2 & H3 & H4 & H5).
  apply (string_inv l); [exact Hq|congruence|exact H5|left; exact H4|].
  apply in_string_app; [|exact H1]. eapply in_string_same; eassumption.
Qed.
(** only emits *)
Definition emits (a : act) : Prop := forall s, sur_ok s ->
  string_ok (snd (a s)) /\ only_sur s (fst (a s)) /\ sur_ok (fst (a s)).
Lemma emits_seq a b : emits a -> emits b -> emits (a ;; b).
Proof.
  intros Ha Hb s Hs. unfold andthen. destruct (Ha s Hs) as (H1 & H2 & H3). destruct (a s) as [s1 o1]. flds.
  destruct (Hb s1 H3) as (H4 & H5 & H6). destruct (b s1) as [s2 o2]. flds.
  split; [apply string_ok_app; assumption|]. split; [eapply only_sur_trans; eassumption|exact H6].
Qed.
Lemma emits_emit b : string_ok b -> emits (emit b).
Proof. intros H s Hs. cbn. repeat split; assumption. Qed.
Lemma emits_cp c : emits (emit_code_point opts c).
Proof. intros s Hs. apply emit_ok, Hs. Qed.
Lemma emits_conv base : emits (emit_converted opts base).
Proof. intros s Hs. unfold emit_converted. apply emit_ok, Hs. Qed.
Lemma emits_clear a : emits a -> clears (a ;; clear_buffer).
Proof.
  intros Ha s Hs. unfold andthen. destruct (Ha s Hs) as (H1 & (H2 & H3 & H4) & H5). destruct (a s) as [s1 o1]. flds.
  cbn. rewrite app_nil_r. destruct H2 as (A & B & C). repeat split; assumption.
Qed.

Lemma raw_ok x : 32 <= x -> x <> 34 -> x <> 92 -> string_ok (utf8 x).
Proof. exact (utf8_ok x). Qed.

Lemma sw_app a p x : starts_with a p = true -> starts_with (a ++ [x]) p = true.
Proof.
  revert a. induction p as [|y p IH]; intros [|z a]; cbn [starts_with app]; try discriminate; auto.
  rewrite !andb_true_iff. intros [H1 H2]. auto.
Qed.

Lemma string_ok_rules c s out : inv s out -> quoted_leaf (s_leaf s) \/ s_leaf s = LUnquoted -> allowed s c ->
  inv (fst (fst (string_rules opts c s))) (out ++ snd (fst (string_rules opts c s))).
Proof.
  intros [Hs HL] El (Ha1 & _ & _). unfold leaf_inv in HL.
  destruct El as [El|El].
  2: { rewrite El in HL. destruct HL as [Eb H]. unfold string_rules. rewrite El.
       destruct (negb (unquoted_next opts s c)).
       - destruct (end_string_ok s out (conj Hs H)) as [X _]. exact X.
       - cbn [consumed fst snd]. destruct (emit_ok c s Hs) as (H1 & (H2 & H3 & H4) & H5).
         split; [exact H5|]. unfold leaf_inv. rewrite H4, El. split; [congruence|].
         apply in_string_app; [|exact H1]. eapply in_string_same; eassumption. }
  assert (HL' : string_buf (s_leaf s) (s_buf s) /\ in_string s out) by (destruct (s_leaf s); destruct El; exact HL).
  clear HL. destruct HL' as [Hb H].
  assert (EQ : string_rules opts c s =
    (if buf_is s [] then string_plain opts (s_leaf s) c s
      else if buf_is s (lit "\") then string_escape opts c s
      else if buf_is s [92; 13] then
        if within c 10 10 then consumed clear_buffer s else again clear_buffer s
      else if buf_is s (lit """") then triple_quote opts """" false c s
      else if buf_is s (lit """""") then triple_quote opts """" true c s
      else if buf_is s (lit "'") then triple_quote opts "'" false c s
      else if buf_is s (lit "''") then triple_quote opts "'" true c s
      else if buf_starts s (lit "\u") then
        if buf_is s (lit "\u") && is c "{" then consumed (clear_buffer ;; append_str (lit "\{")) s
        else if is_hex c then digit_then opts c 6 16 s
        else again (emit_converted opts 16 ;; clear_buffer) s
      else if buf_starts s (lit "\o") then
        if is_octal c then digit_then opts c 5 8 s
        else again (emit_converted opts 8 ;; clear_buffer) s
      else if buf_starts s (lit "\x") then
        if is_hex c then digit_then opts c 4 16 s
        else again (emit_converted opts 16 ;; clear_buffer) s
      else if buf_starts s (lit "\U") then
        if is_hex c then digit_then opts c 10 16 s
        else if buf_is s (lit "\U") && is c "{" then
          consumed (clear_buffer ;; append_str (lit "\{")) s
        else again (emit_converted opts 16 ;; clear_buffer) s
      else if buf_starts s (lit "\{") then
        if is_hex c && Nat.ltb (List.length (s_buf s)) 100 then consumed (append_code_point c) s
        else if is c "}" then consumed (emit_converted opts 16 ;; clear_buffer) s
        else again (emit_converted opts 16 ;; clear_buffer) s
      else consumed (set_state_buf LBase []) s)) by (unfold string_rules; destruct (s_leaf s); destruct El; reflexivity).
  rewrite EQ. clear EQ.
  assert (ES : inv (fst (end_string opts s)) (out ++ snd (end_string opts s))).
  { destruct (end_string_ok s out (conj Hs H)) as [X _]. exact X. }
  assert (BUF : forall b, string_buf (s_leaf s) b -> inv (set_buf b s) out).
  { intros b Hb'. apply (string_inv (s_leaf s)); [exact El|reflexivity|exact Hs|exact Hb'|].
    eapply in_string_same; [|exact H]. repeat split. }
  assert (CL : forall a, clears a -> inv (fst (a s)) (out ++ snd (a s))).
  { intros a Ha. apply (clears_inv _ (s_leaf s)); auto. }
  assert (CV : forall base, inv (fst ((emit_converted opts base ;; clear_buffer) s)) (out ++ snd ((emit_converted opts base ;; clear_buffer) s))).
  { intros base. apply CL, emits_clear, emits_conv. }
  assert (DT : forall x n base, string_buf (s_leaf s) (s_buf s ++ [x]) ->
     inv (fst (fst (digit_then opts (Some x) n base s))) (out ++ snd (fst (digit_then opts (Some x) n base s)))).
  { intros x n base Hx. unfold digit_then, append_code_point, upd.
    specialize (BUF _ Hx). destruct (Nat.eqb _ n).
    - cbn [consumed fst snd]. apply (clears_inv _ (s_leaf s)); [apply emits_clear, emits_conv|exact El|reflexivity|exact Hs|].
      eapply in_string_same; [|exact H]. repeat split.
    - cbn. rewrite app_nil_r. exact BUF. }
  assert (CB : inv (fst (clear_buffer s)) (out ++ snd (clear_buffer s))).
  { cbn. rewrite app_nil_r. apply BUF. left. reflexivity. }
  destruct (buf_is s []) eqn:E0.
  { apply bytes_eqb_eq in E0. unfold string_plain. destruct c as [x|]; [|exact ES].
    destruct (is (Some x) "\").
    { cbn. rewrite app_nil_r, E0. apply BUF. right. left. reflexivity. }
    destruct (match s_leaf s with LDouble => is (Some x) """" | LSingle => is (Some x) "'" | LBacktick => is (Some x) "`" | _ => false end); [exact ES|].
    destruct (match s_leaf s with LTDouble => is (Some x) """" | LTSingle => is (Some x) "'" | _ => false end) eqn:Et.
    { cbn. rewrite app_nil_r, E0. apply BUF. unfold string_buf.
      destruct (s_leaf s); try discriminate; apply is_true in Et; injection Et as ->;
        [right; right; right; left|right; right; right; right; left]; auto. }
    cbn [consumed fst snd]. destruct (emit_ok (Some x) s Hs) as (H1 & (H2 & H3 & H4) & H5).
    apply (string_inv (s_leaf s)); [exact El|exact H4|exact H5|rewrite H3; exact Hb|].
    apply in_string_app; [|exact H1]. eapply in_string_same; eassumption. }
  destruct (buf_is s (lit "\")) eqn:E1.
  { apply bytes_eqb_eq in E1. unfold string_escape.
    destruct (is c """" || is c "\" || is c "/" || is c "b" || is c "f" || is c "n" || is c "r" || is c "t") eqn:C1.
    { apply (CL (emit (lit "\") ;; emit_raw c ;; clear_buffer)).
      assert (X : exists x, c = Some x /\ simple_escape x <> None /\ utf8 x = [x]).
      { rewrite !orb_true_iff in C1. repeat (destruct C1 as [C1|C1]); apply is_true in C1; subst c;
          eexists; (split; [reflexivity|]); split; try reflexivity; vm_compute; discriminate. }
      destruct X as (x & -> & Hx & Ux).
      assert (Y : clears (emit (lit "\" ++ [x]) ;; clear_buffer)) by (apply emits_clear, emits_emit, esc2, Hx).
      intros s1 Hs1. specialize (Y s1 Hs1). cbn -[utf8] in Y. cbn -[utf8]. rewrite Ux. exact Y. }
    destruct (is c "a"); [apply (CL _ (emits_clear _ (emits_cp _)))|].
    destruct (is c "v"); [apply (CL _ (emits_clear _ (emits_cp _)))|].
    destruct (is c "`" || is c "'") eqn:C2.
    { apply (CL (emit_raw c ;; clear_buffer)), emits_clear. apply emits_emit.
      apply orb_true_iff in C2. destruct C2 as [C2|C2]; apply is_true in C2; subst c; apply utf8_ok; vm_compute; congruence. }
    destruct (is c "u" || is c "U") eqn:C3.
    { cbn. rewrite app_nil_r. apply orb_true_iff in C3. destruct C3 as [C3|C3]; apply is_true in C3; subst c;
        rewrite E1; apply BUF; unfold string_buf; [do 5 right; left|do 8 right; left]; reflexivity. }
    destruct (is c "x" || is c "X") eqn:C4.
    { cbn. rewrite app_nil_r, E1. apply BUF. unfold string_buf. do 7 right. left. reflexivity. }
    destruct (is_octal c) eqn:C5.
    { destruct c as [x|]; [|discriminate]. cbn. rewrite app_nil_r, E1. apply BUF. unfold string_buf. do 6 right. left. reflexivity. }
    destruct (negb (within c 13 13) && json5_eol c) eqn:C7; [exact CB|].
    destruct (within c 13 13) eqn:C6.
    { cbn. rewrite app_nil_r, E1. apply BUF. right. right. left. reflexivity. }
    destruct c as [x|]; [|exact ES].
    apply (CL (emit (lit "\\") ;; emit_raw (Some x) ;; clear_buffer)).
    assert (Hx : 32 <= x /\ x <> 34 /\ x <> 92).
    { split; [|split; intros ->; discriminate].
      specialize (Ha1 El E1 x eq_refl). destruct Ha1 as [?|[->| ->]]; [assumption|discriminate C7|discriminate C6]. }
    destruct Hx as (X1 & X2 & X3).
    assert (Y : clears ((emit (lit "\\") ;; emit_raw (Some x)) ;; clear_buffer)).
    { apply emits_clear, emits_seq; apply emits_emit; [apply esc2; vm_compute; discriminate|apply utf8_ok; assumption]. }
    intros s1 Hs1. specialize (Y s1 Hs1). cbn -[utf8] in Y. cbn -[utf8]. rewrite !app_nil_r in *. exact Y. }
  destruct (buf_is s [92; 13]) eqn:E2.
  { destruct (within c 10 10); exact CB. }
  (* quotes in triple-quoted strings *)
  assert (TQ : forall q two,
    (two = false -> string_buf (s_leaf s) (s_buf s ++ [N_of_ascii q])) ->
    inv (fst (fst (triple_quote opts q two c s))) (out ++ snd (fst (triple_quote opts q two c s)))).
  { intros q two Hq. unfold triple_quote. destruct two.
    - destruct c as [x|]; [|exact ES]. destruct (is (Some x) q); [exact ES|].
      match goal with |- context[consumed ?a s] => apply (CL a) end.
      assert (Y : clears ((emit_code_point opts (Some (N_of_ascii q)) ;; emit_code_point opts (Some (N_of_ascii q)) ;;
                           emit_code_point opts (Some x)) ;; clear_buffer)).
      { apply emits_clear. repeat (apply emits_seq; [apply emits_cp|]). apply emits_cp. }
      intros s1 Hs1. specialize (Y s1 Hs1). revert Y. unfold andthen.
      destruct (emit_code_point opts (Some (N_of_ascii q)) s1) as [s2 o2].
      destruct (emit_code_point opts (Some (N_of_ascii q)) s2) as [s3 o3].
      destruct (emit_code_point opts (Some x) s3) as [s4 o4]. destruct (clear_buffer s4) as [s5 o5]. flds.
      rewrite <- !app_assoc. auto.
    - destruct c as [x|]; [|exact ES]. destruct (is (Some x) q).
      + cbn. rewrite app_nil_r. apply BUF, Hq. reflexivity.
      + match goal with |- context[consumed ?a s] => apply (CL a) end.
        assert (Y : clears ((emit_code_point opts (Some (N_of_ascii q)) ;;
                           emit_code_point opts (Some x)) ;; clear_buffer)).
        { apply emits_clear. repeat (apply emits_seq; [apply emits_cp|]). apply emits_cp. }
        intros s1 Hs1. specialize (Y s1 Hs1). revert Y. unfold andthen.
        destruct (emit_code_point opts (Some (N_of_ascii q)) s1) as [s2 o2].
        destruct (emit_code_point opts (Some x) s2) as [s4 o4]. destruct (clear_buffer s4) as [s5 o5]. flds.
        rewrite <- !app_assoc. auto. }
  assert (Hb' : (s_leaf s = LTDouble /\ (s_buf s = lit """" \/ s_buf s = lit """""")) \/
                (s_leaf s = LTSingle /\ (s_buf s = lit "'" \/ s_buf s = lit "''")) \/
                buf_starts s (lit "\u") = true \/ buf_starts s (lit "\o") = true \/
                buf_starts s (lit "\x") = true \/ buf_starts s (lit "\U") = true \/ buf_starts s (lit "\{") = true).
  { unfold buf_is in *. rewrite bytes_eqb_neq in E0, E1, E2.
    destruct Hb as [Hb|[Hb|[Hb|Hb]]]; [destruct (E0 Hb)|destruct (E1 Hb)|destruct (E2 Hb)|exact Hb]. }
  destruct (buf_is s (lit """")) eqn:E3.
  { apply TQ. intros _. unfold buf_is in E3. rewrite bytes_eqb_eq in E3. unfold buf_starts in Hb'. rewrite E3 in *.
    destruct Hb' as [[L _]|[[_ [Q|Q]]|Hb']]; try discriminate.
    - unfold string_buf. do 3 right. left. rewrite L. split; [reflexivity|]. right. reflexivity.
    - repeat (destruct Hb' as [Hb'|Hb']; [discriminate|]). discriminate. }
  destruct (buf_is s (lit """""")) eqn:E4; [apply TQ; discriminate|].
  destruct (buf_is s (lit "'")) eqn:E5.
  { apply TQ. intros _. unfold buf_is in E5. rewrite bytes_eqb_eq in E5. unfold buf_starts in Hb'. rewrite E5 in *.
    destruct Hb' as [[_ [Q|Q]]|[[L _]|Hb']]; try discriminate.
    - unfold string_buf. do 4 right. left. rewrite L. split; [reflexivity|]. right. reflexivity.
    - repeat (destruct Hb' as [Hb'|Hb']; [discriminate|]). discriminate. }
  destruct (buf_is s (lit "''")) eqn:E6; [apply TQ; discriminate|].
  assert (BR : inv (fst ((clear_buffer ;; append_str (lit "\{")) s)) (out ++ snd ((clear_buffer ;; append_str (lit "\{")) s))).
  { cbn. rewrite app_nil_r. apply BUF. unfold string_buf. do 9 right. reflexivity. }
  destruct (buf_starts s (lit "\u")) eqn:S1.
  { destruct (buf_is s (lit "\u") && is c "{"); [exact BR|]. destruct (is_hex c) eqn:Hh; [|apply CV].
    destruct c as [x|]; [|discriminate]. apply DT. unfold string_buf. do 5 right. left. apply sw_app, S1. }
  destruct (buf_starts s (lit "\o")) eqn:S2.
  { destruct (is_octal c) eqn:Hh; [|apply CV].
    destruct c as [x|]; [|discriminate]. apply DT. unfold string_buf. do 6 right. left. apply sw_app, S2. }
  destruct (buf_starts s (lit "\x")) eqn:S3.
  { destruct (is_hex c) eqn:Hh; [|apply CV].
    destruct c as [x|]; [|discriminate]. apply DT. unfold string_buf. do 7 right. left. apply sw_app, S3. }
  destruct (buf_starts s (lit "\U")) eqn:S4.
  { destruct (is_hex c) eqn:Hh.
    - destruct c as [x|]; [|discriminate]. apply DT. unfold string_buf. do 8 right. left. apply sw_app, S4.
    - destruct (buf_is s (lit "\U") && is c "{"); [exact BR|apply CV]. }
  destruct (buf_starts s (lit "\{")) eqn:S5.
  { destruct (is_hex c && Nat.ltb (List.length (s_buf s)) 100) eqn:Hh.
    - destruct c as [x|]; [|discriminate]. cbn [consumed append_code_point upd fst snd]. rewrite app_nil_r.
      apply BUF. unfold string_buf. do 9 right. apply sw_app, S5.
    - destruct (is c "}"); apply CV. }
  exfalso. unfold buf_is in *. rewrite bytes_eqb_neq in E3, E4, E5, E6.
  destruct Hb' as [[_ [Q|Q]]|[[_ [Q|Q]]|Hb']]; try congruence.
  repeat (destruct Hb' as [Hb'|Hb']; [discriminate|]). discriminate.
Qed.

(** ** Numbers *)
Lemma dec_digits_int fuel : forall n acc, n < 2 ^ N.of_nat fuel -> Forall digit acc ->
  (acc = [] \/ 0 < n) -> fuel <> O -> int_part (dec_digits fuel n acc).
Proof.
  induction fuel as [|f IH]; intros n acc Hn Hacc H0 Hf; [congruence|]. cbn [dec_digits].
  destruct (n <? 10) eqn:E.
  - destruct H0 as [->|H0].
    + destruct (n =? 0) eqn:E0.
      * replace n with 0 by lia. left. reflexivity.
      * right. exists (48 + n), []. split; [reflexivity|]. split; [lia|constructor].
    + right. exists (48 + n), acc. split; [reflexivity|]. split; [lia|exact Hacc].
  - assert (Hd : 1 <= n / 10) by (apply N.div_le_lower_bound; lia).
    assert (Hm : n mod 10 < 10) by (apply N.mod_lt; discriminate).
    assert (Hq : n / 10 < 2 ^ N.of_nat f).
    { replace (N.of_nat (S f)) with (N.succ (N.of_nat f)) in Hn by lia. rewrite N.pow_succ_r' in Hn.
      apply N.div_lt_upper_bound; [discriminate|]. lia. }
    apply IH.
    + exact Hq.
    + constructor; [|exact Hacc]. unfold digit. lia.
    + right. lia.
    + intros ->. cbn in Hq. lia.
Qed.
Lemma dec_of_N_int n : int_part (dec_of_N n).
Proof.
  unfold dec_of_N. apply dec_digits_int; [|constructor|left; reflexivity|discriminate].
  replace (N.of_nat (S (N.to_nat (N.log2 n)))) with (N.succ (N.log2 n)) by lia.
  destruct (N.eq_dec n 0) as [->|H]; [reflexivity|]. apply N.log2_spec. lia.
Qed.

Lemma value_end s p w : sur_ok s -> started_value s p -> vtext w -> sur_ok s /\ finished s (p ++ w).
Proof.
  intros Hs [(H1 & H2 & H3) Hk] Hw. split; [exact Hs|]. unfold finished. rewrite Hk in *. apply ctx_value; assumption.
Qed.
Lemma end_number_ok c s out : sur_ok s /\ finished s out ->
  inv (fst (fst (end_number c s))) (out ++ snd (fst (end_number c s))).
Proof.
  intros H. unfold end_number. destruct (is c "n" || is c "l" || is c "L"); cbn [consumed again fst snd];
    apply end_value_inv; exact H.
Qed.
Lemma number_vtext w : number_ok w -> vtext w.
Proof. intros H. exists (JNum w). split; [constructor; left; exact H|]. symmetry. apply app_nil_r. Qed.

Lemma first_inv b r s out :
  inv (fst (fst (r s))) ((out ++ b) ++ snd (fst (r s))) ->
  inv (fst (fst (first (emit b) r s))) (out ++ snd (fst (first (emit b) r s))).
Proof.
  unfold first, emit. destruct (r s) as [[s2 o2] d]. cbn [fst snd]. rewrite app_assoc. auto.
Qed.

Lemma digits1_snoc l d : Forall digit l -> digit d -> digits1 (l ++ [d]).
Proof. intros H1 H2. split; [destruct l; discriminate|]. apply Forall_app. auto. Qed.
Lemma int_snoc i d : int_part i -> digit d -> i <> [48] -> int_part (i ++ [d]).
Proof.
  intros [->|(x & r & -> & H1 & H2)] Hd Hn; [congruence|]. right. exists x, (r ++ [d]).
  split; [reflexivity|]. split; [exact H1|]. apply Forall_app. auto.
Qed.

Lemma buffered_ok c s out : inv s out -> s_leaf s = LNumBuffered ->
  inv (fst (fst (buffered_rules c s))) (out ++ snd (fst (buffered_rules c s))).
Proof.
  intros [Hs HL] El. unfold leaf_inv in HL. rewrite El in HL. destruct HL as (Hb & p & sg & Hp & Hsg & ->).
  assert (SV : forall l b, started_value (set_leaf l (set_buf b s)) p).
  { intros l b. eapply started_value_same; [|exact Hp]. repeat split. }
  assert (SB : forall b, started_value (set_buf b s) p).
  { intros b. eapply started_value_same; [|exact Hp]. repeat split. }
  assert (K : inv s (p ++ sg)) by (apply buf_inv; auto).
  unfold buffered_rules, buf_is.
  destruct (bytes_eqb (s_buf s) (lit "0") && within c 49 57) eqn:B1.
  { apply andb_true_iff in B1. destruct B1 as [_ B1]. apply within_true in B1. destruct B1 as (x & -> & Hx).
    cbn -[utf8]. rewrite app_nil_r. replace (utf8 x) with [x] by (unfold utf8; replace (x <? 128) with true by lia; reflexivity).
    rewrite <- app_assoc. apply num_inv; [exact Hs|apply SV|reflexivity|].
    exists sg, [x]. split; [exact Hsg|]. split; [apply int_digit, Hx|]. left. split; [reflexivity|]. split; [|reflexivity]. clear -Hx. intros [= E]. lia. }
  destruct (bytes_eqb (s_buf s) (lit "0") && is c "0"); [cbn; rewrite app_nil_r; exact K|].
  destruct ((bytes_eqb (s_buf s) [] || bytes_eqb (s_buf s) (lit "0")) && is c ".").
  { cbn. rewrite <- app_assoc. apply num_inv; [exact Hs|apply SV|reflexivity|].
    exists sg, [48]. split; [exact Hsg|]. split; [left; reflexivity|]. right. left. split; reflexivity. }
  destruct (bytes_eqb (s_buf s) (lit "0") && (is c "x" || is c "X")) eqn:B2.
  { apply andb_true_iff in B2. destruct B2 as [B2 _]. apply bytes_eqb_eq in B2. cbn. rewrite app_nil_r, B2.
    apply buf_inv; [exact Hs|apply SB|exact El| |exact Hsg]. right. left. reflexivity. }
  destruct (bytes_eqb (s_buf s) (lit "0") && (is c "o" || is c "O")) eqn:B3.
  { apply andb_true_iff in B3. destruct B3 as [B3 _]. apply bytes_eqb_eq in B3. cbn. rewrite app_nil_r, B3.
    apply buf_inv; [exact Hs|apply SB|exact El| |exact Hsg]. right. right. left. reflexivity. }
  destruct (bytes_eqb (s_buf s) (lit "0") && (is c "b" || is c "B")) eqn:B4.
  { apply andb_true_iff in B4. destruct B4 as [B4 _]. apply bytes_eqb_eq in B4. cbn. rewrite app_nil_r, B4.
    apply buf_inv; [exact Hs|apply SB|exact El| |exact Hsg]. right. right. right. reflexivity. }
  assert (AR : forall x, (starts_with (s_buf s) (lit "0x") = true \/ starts_with (s_buf s) (lit "0o") = true \/
                          starts_with (s_buf s) (lit "0b") = true) ->
     inv (fst (append_if_room (Some x) s)) ((p ++ sg) ++ snd (append_if_room (Some x) s))).
  { intros x Hx. unfold append_if_room. destruct (Nat.ltb _ 100); cbn [append_code_point upd fst snd]; rewrite app_nil_r; [|exact K].
    apply buf_inv; [exact Hs|apply SB|exact El| |exact Hsg]. right. flds.
    destruct Hx as [Hx|[Hx|Hx]]; [left|right; left|right; right]; apply sw_app, Hx. }
  unfold buf_starts.
  destruct (starts_with (s_buf s) (lit "0x") && is_hex c) eqn:B5.
  { apply andb_true_iff in B5. destruct B5 as [B5 Hc]. destruct c as [x|]; [|discriminate]. apply AR. auto. }
  destruct (starts_with (s_buf s) (lit "0o") && is_octal c) eqn:B6.
  { apply andb_true_iff in B6. destruct B6 as [B6 Hc]. destruct c as [x|]; [|discriminate]. apply AR. auto. }
  destruct (starts_with (s_buf s) (lit "0b") && is_binary c) eqn:B7.
  { apply andb_true_iff in B7. destruct B7 as [B7 Hc]. destruct c as [x|]; [|discriminate]. apply AR. auto. }
  assert (I : exists i, int_part i /\
    (if bytes_eqb (s_buf s) [] || bytes_eqb (s_buf s) (lit "0") then lit "0"
     else if starts_with (s_buf s) (lit "0x") then dec_of_N (convert_buffer s 16)
     else if starts_with (s_buf s) (lit "0o") then dec_of_N (convert_buffer s 8)
     else if starts_with (s_buf s) (lit "0b") then dec_of_N (convert_buffer s 2) else []) = i).
  { eexists. split; [|reflexivity].
    destruct (bytes_eqb (s_buf s) [] || bytes_eqb (s_buf s) (lit "0")) eqn:X; [left; reflexivity|].
    destruct (starts_with (s_buf s) (lit "0x")) eqn:X1; [apply dec_of_N_int|].
    destruct (starts_with (s_buf s) (lit "0o")) eqn:X2; [apply dec_of_N_int|].
    destruct (starts_with (s_buf s) (lit "0b")) eqn:X3; [apply dec_of_N_int|].
    exfalso. apply orb_false_iff in X. destruct X as [_ X]. apply bytes_eqb_neq in X.
    destruct Hb as [Hb|[Hb|[Hb|Hb]]]; congruence. }
  destruct I as (i & Hi & ->). apply first_inv.
  destruct (is c "e" || is c "E").
  - cbn. rewrite <- !app_assoc. apply num_inv; [exact Hs|apply SV|reflexivity|].
    exists sg, i. split; [exact Hsg|]. split; [exact Hi|]. right. right. right. exists [].
    split; [left; reflexivity|]. left. split; reflexivity.
  - apply end_number_ok. rewrite <- app_assoc. apply value_end; [exact Hs|exact Hp|].
    apply number_vtext. exists sg, i, [], []. rewrite !app_nil_r. split; [reflexivity|].
    split; [exact Hsg|]. split; [exact Hi|]. split; left; reflexivity.
Qed.


Ltac num_case Hn :=
  destruct Hn as [(?E & ?Hi0 & ?)|[(?E & ?)|[(?E & ?f & ?Hf & ?)|(?f & ?Hf & [(?E & ?)|(?e & ?He & [(?E & ?)|(?E & ?d & ?Hd & ?)])])]]].

Lemma decimal_ok c s out : inv s out -> s_leaf s = LNumDecimal ->
  inv (fst (fst (decimal_rules c s))) (out ++ snd (fst (decimal_rules c s))).
Proof.
  intros [Hs HL] El. unfold leaf_inv in HL. rewrite El in HL. destruct HL as (p & w & Hp & (sg & i & Hsg & Hi & Hn) & ->).
  assert (SB : forall b, started_value (set_buf b s) p).
  { intros b. eapply started_value_same; [|exact Hp]. repeat split. }
  assert (IN : forall b w', number_at b w' -> inv (set_buf b s) (p ++ w')).
  { intros b w' H. apply num_inv; [exact Hs|apply SB|exact El|exact H]. }
  assert (IS : forall w', number_at (s_buf s) w' -> inv s (p ++ w')).
  { intros w' H. apply num_inv; [exact Hs|exact Hp|exact El|exact H]. }
  assert (NA : forall P : Prop, P -> P) by auto.
  unfold decimal_rules, buf_is.
  destruct (within c 48 57) eqn:B1.
  { apply within_true in B1. destruct B1 as (x & -> & Hx).
    assert (U : utf8 x = [x]) by (unfold utf8; replace (x <? 128) with true by lia; reflexivity).
    assert (Hdig : digit x) by exact Hx.
    unfold consumed, cond, andthen, append_str, upd, nop, emit, emit_raw. flds.
    num_case Hn; subst w; rewrite ?E;
      cbn [lit bytes_eqb N_of_ascii N_of_digits N.add Pos.add N.mul Pos.mul N.eqb Pos.eqb andb orb]; flds; rewrite ?E;
      cbn [lit bytes_eqb N_of_ascii N_of_digits N.add Pos.add N.mul Pos.mul N.eqb Pos.eqb andb orb app]; flds; rewrite ?E; cbn [app];
      cbn [lit bytes_eqb N_of_ascii N_of_digits N.add Pos.add N.mul Pos.mul N.eqb Pos.eqb andb orb app]; flds; rewrite ?U;
      rewrite <- ?app_assoc; cbn [app].
    - apply IS. rewrite E. exists sg, (i ++ [x]). split; [exact Hsg|]. split; [apply int_snoc; assumption|]. left.
      split; [reflexivity|]. split; [|reflexivity]. destruct i as [|i0 [|]]; [|discriminate..]. destruct Hi as [?|(? & ? & ? & _)]; discriminate.
    - apply IN. exists sg, i. split; [exact Hsg|]. split; [exact Hi|]. right. right. left. split; [reflexivity|].
      exists [x]. split; [|reflexivity]. apply (digits1_snoc []); [constructor|exact Hdig].
    - apply IS. rewrite E. exists sg, i. split; [exact Hsg|]. split; [exact Hi|]. right. right. left. split; [reflexivity|].
      exists (f ++ [x]). split; [apply digits1_snoc; [apply Hf|exact Hdig]|reflexivity].
    - apply IN. exists sg, i. split; [exact Hsg|]. split; [exact Hi|]. right. right. right. exists f. split; [exact Hf|].
      right. exists [101]. split; [left; reflexivity|]. right. split; [reflexivity|]. exists [x].
      split; [apply (digits1_snoc []); [constructor|exact Hdig]|reflexivity].
    - apply IN. exists sg, i. split; [exact Hsg|]. split; [exact Hi|]. right. right. right. exists f. split; [exact Hf|].
      right. exists e. split; [exact He|]. right. split; [reflexivity|]. exists [x].
      split; [apply (digits1_snoc []); [constructor|exact Hdig]|reflexivity].
    - apply IS. rewrite E. exists sg, i. split; [exact Hsg|]. split; [exact Hi|]. right. right. right. exists f. split; [exact Hf|].
      right. exists e. split; [exact He|]. right. split; [reflexivity|]. exists (d ++ [x]).
      split; [apply digits1_snoc; [apply Hd|exact Hdig]|rewrite <- ?app_assoc; reflexivity]. }
  destruct (bytes_eqb (s_buf s) [] && is c ".") eqn:B2.
  { apply andb_true_iff in B2. destruct B2 as [B2 _]. apply bytes_eqb_eq in B2. cbn. rewrite B2.
    num_case Hn; rewrite B2 in E; try discriminate. subst w. rewrite <- !app_assoc. apply IN.
    exists sg, i. split; [exact Hsg|]. split; [exact Hi|]. right. left. split; reflexivity. }
  destruct (bytes_eqb (s_buf s) [] && (is c "e" || is c "E")) eqn:B3.
  { apply andb_true_iff in B3. destruct B3 as [B3 _]. apply bytes_eqb_eq in B3. cbn. rewrite B3.
    num_case Hn; rewrite B3 in E; try discriminate. subst w. rewrite <- !app_assoc. apply IN.
    exists sg, i. split; [exact Hsg|]. split; [exact Hi|]. right. right. right. exists []. split; [left; reflexivity|].
    left. split; reflexivity. }
  destruct (bytes_eqb (s_buf s) (lit ".") && (is c "e" || is c "E")) eqn:B4.
  { apply andb_true_iff in B4. destruct B4 as [B4 _]. apply bytes_eqb_eq in B4. cbn. rewrite B4.
    num_case Hn; rewrite B4 in E; try discriminate. subst w. rewrite <- !app_assoc. apply IN.
    exists sg, i. split; [exact Hsg|]. split; [exact Hi|]. right. right. right. exists [46; 48].
    split; [right; exists [48]; split; [reflexivity|]; apply (digits1_snoc []); [constructor|unfold digit; clear; lia]|].
    left. split; reflexivity. }
  destruct (bytes_eqb (s_buf s) (lit ".0") && (is c "e" || is c "E")) eqn:B5.
  { apply andb_true_iff in B5. destruct B5 as [B5 _]. apply bytes_eqb_eq in B5. cbn. rewrite B5.
    num_case Hn; rewrite B5 in E; try discriminate. subst w. rewrite <- !app_assoc. apply IN.
    exists sg, i. split; [exact Hsg|]. split; [exact Hi|]. right. right. right. exists (46 :: f).
    split; [right; exists f; auto|]. left. split; reflexivity. }
  destruct (bytes_eqb (s_buf s) (lit ".0e") && (is c "+" || is c "-")) eqn:B6.
  { apply andb_true_iff in B6. destruct B6 as [B6 Hc]. apply bytes_eqb_eq in B6.
    assert (X : exists x, c = Some x /\ (x = 43 \/ x = 45) /\ utf8 x = [x]).
    { apply orb_true_iff in Hc. destruct Hc as [Hc|Hc]; apply is_true in Hc; subst c; eexists; (split; [reflexivity|]);
        (split; [|reflexivity]); [left|right]; reflexivity. }
    destruct X as (x & -> & Hx & U). cbn -[utf8]. rewrite B6, U.
    num_case Hn; rewrite B6 in E; try discriminate. subst w. rewrite <- !app_assoc. apply IN.
    exists sg, i. split; [exact Hsg|]. split; [exact Hi|]. right. right. right. exists f. split; [exact Hf|].
    right. exists [101; x]. split; [destruct Hx as [->| ->]; [right; left|right; right]; reflexivity|]. left. split; reflexivity. }
  apply first_inv. apply end_number_ok. rewrite <- app_assoc. apply value_end; [exact Hs|exact Hp|]. apply number_vtext.
  assert (D0 : digits1 [48]) by (apply (digits1_snoc []); [constructor|unfold digit; clear; lia]).
  num_case Hn; subst w; rewrite E;
    cbn [lit bytes_eqb N_of_ascii N_of_digits N.add Pos.add N.mul Pos.mul N.eqb Pos.eqb andb orb]; rewrite <- ?app_assoc; cbn [app].
  - exists sg, i, [], []. split; [rewrite !app_nil_r; reflexivity|]. split; [exact Hsg|]. split; [exact Hi|]. split; left; reflexivity.
  - exists sg, i, [46; 48], []. split; [reflexivity|]. split; [exact Hsg|]. split; [exact Hi|]. split; [|left; reflexivity].
    right. exists [48]. split; [reflexivity|exact D0].
  - exists sg, i, (46 :: f), []. split; [reflexivity|]. split; [exact Hsg|]. split; [exact Hi|]. split; [|left; reflexivity].
    right. exists f. auto.
  - exists sg, i, f, [101; 48]. split; [reflexivity|]. split; [exact Hsg|]. split; [exact Hi|]. split; [exact Hf|].
    right. exists 101, [], [48]. (split; [reflexivity|split; [left; reflexivity|split; [auto|exact D0]]]).
  - exists sg, i, f, (e ++ [48]). split; [reflexivity|]. split; [exact Hsg|]. split; [exact Hi|]. split; [exact Hf|].
    right. destruct He as [->|[->| ->]]; [exists 101, [], [48]|exists 101, [43], [48]|exists 101, [45], [48]];
      (split; [reflexivity|split; [left; reflexivity|split; [auto|exact D0]]]).
  - exists sg, i, f, (e ++ d). split; [rewrite !app_nil_r; reflexivity|]. split; [exact Hsg|]. split; [exact Hi|]. split; [exact Hf|].
    right. destruct He as [->|[->| ->]]; [exists 101, [], d|exists 101, [43], d|exists 101, [45], d];
      (split; [reflexivity|split; [left; reflexivity|split; [auto|exact Hd]]]).
Qed.

Lemma all_rules_ok c s out : inv s out -> allowed s c ->
  inv (fst (fst (all_rules opts c s))) (out ++ snd (fst (all_rules opts c s))).
Proof.
  intros H Ha. unfold all_rules. destruct (s_leaf s) eqn:El.
  - apply base_ok; assumption.
  - apply string_ok_rules; [exact H|left; rewrite El; exact I|exact Ha].
  - apply string_ok_rules; [exact H|left; rewrite El; exact I|exact Ha].
  - apply string_ok_rules; [exact H|left; rewrite El; exact I|exact Ha].
  - apply string_ok_rules; [exact H|left; rewrite El; exact I|exact Ha].
  - apply string_ok_rules; [exact H|left; rewrite El; exact I|exact Ha].
  - apply string_ok_rules; [exact H|right; exact El|exact Ha].
  - apply comment_ok; [exact H|rewrite El; exact I].
  - apply comment_ok; [exact H|rewrite El; exact I].
  - unfold number_rules. destruct (is c "_" || is c "'"); [cbn; rewrite app_nil_r; exact H|]. rewrite El. apply buffered_ok; assumption.
  - unfold number_rules. destruct (is c "_" || is c "'"); [cbn; rewrite app_nil_r; exact H|]. rewrite El. apply decimal_ok; assumption.
Qed.

(** ** Retrying *)
Lemma fst_seq a b s : fst ((a ;; b) s) = fst (b (fst (a s))).
Proof. unfold andthen. destruct (a s) as [s1 o1]. cbn [fst]. destruct (b s1). reflexivity. Qed.
Lemma end_value_buf s : s_buf (fst (end_value s)) = [] /\ s_leaf (fst (end_value s)) = LBase.
Proof. unfold end_value, andthen, set_state_buf, upd. flds. destruct (s_stack s) as [|[|] k]; split; reflexivity. Qed.
Lemma end_string_buf s : s_buf (fst (end_string opts s)) = [] /\ s_leaf (fst (end_string opts s)) = LBase.
Proof. unfold end_string. rewrite fst_seq. apply end_value_buf. Qed.


(** what the buffer of the next state says about the code point *)
Definition hist (c : option N) (s s1 : sst) : Prop :=
  (quoted_leaf (s_leaf s1) -> s_buf s1 = [92] -> c = Some 92) /\
  (s_leaf s1 = LBase ->
   (s_buf s1 = [96] -> c = Some 96) /\
   (s_buf s1 = [96; 96] -> c = Some 96 /\ s_leaf s = LBase /\ s_buf s = [96] \/ c = None) /\
   (s_buf s1 = [45] -> c = Some 45) /\ (s_buf s1 = [43] -> c = Some 43)) /\
  s_leaf s1 <> LUnquoted.
Definition summ (c : option N) (s : sst) (r : (sst * bytes) * bool) : Prop :=
  s_buf (fst (fst r)) = [] \/ (snd r = true /\ hist c s (fst (fst r))).

Lemma emit1_only x s : only_sur s (fst (emit_code_point1 opts x s)).
Proof.
  unfold emit_code_point1. repeat match goal with |- context[if ?b then _ else _] => destruct b end; try (repeat split; fail).
  all: destruct (s_sur s); repeat split.
Qed.
Lemma emit_only c s : only_sur s (fst (emit_code_point opts c s)).
Proof.
  destruct c as [x|]; [|repeat split]. unfold emit_code_point. rewrite fst_seq.
  eapply only_sur_trans; [|apply emit1_only]. unfold cond. destruct (match s_sur s with Some _ => negb (u16_trail x) | None => false end).
  - rewrite fst_seq. repeat split.
  - repeat split.
Qed.
Lemma emit_list_only l : forall s, only_sur s (fst (emit_list opts l s)).
Proof.
  induction l as [|x l IH]; intros s; [repeat split|]. cbn [emit_list]. rewrite fst_seq.
  eapply only_sur_trans; [apply emit_only|apply IH].
Qed.
Lemma clear_buf a s : s_buf (fst ((a ;; clear_buffer) s)) = [].
Proof. rewrite fst_seq. reflexivity. Qed.
Lemma summ_nil c s r : s_buf (fst (fst r)) = [] -> summ c s r.
Proof. left. assumption. Qed.
Lemma summ_hist c s s1 o : hist c s s1 -> summ c s ((s1, o), true).
Proof. right. auto. Qed.

Lemma hist_other c s s1 :
  match s_leaf s1 with LCommentLine | LCommentMulti | LNumBuffered | LNumDecimal => True | _ => False end ->
  hist c s s1.
Proof.
  intros H. split; [|split].
  - destruct (s_leaf s1); cbn; tauto.
  - intros E. rewrite E in H. destruct H.
  - intros E. rewrite E in H. destruct H.
Qed.

Lemma base_summ c s : s_leaf s = LBase -> summ c s (base_rules opts c s).
Proof.
  intros El. unfold base_rules.
  assert (N : summ c s ((s, []), true) \/ True) by auto. clear N.
  destruct (buf_is s []) eqn:E0; unfold buf_is in *.
  - apply bytes_eqb_eq in E0.
    assert (AP : forall s0, s_leaf s0 = LBase -> s_buf s0 = [] -> hist c s (fst (append_code_point c s0))).
    { intros s0 L0 B0. unfold append_code_point, upd. destruct c as [x|]; unfold hist; cbn [fst]; flds.
      - split; [rewrite L0; intros []|]. split; [|rewrite L0; discriminate]. intros _. rewrite B0. cbn [app].
        repeat split; intros X; injection X; intros; subst; try reflexivity; discriminate.
      - split; [rewrite L0; intros []|]. split; [|rewrite L0; discriminate]. intros _. rewrite B0. repeat split; intros X; discriminate. }
    repeat match goal with
    | |- summ _ _ (if ?b then _ else _) => destruct b eqn:?
    end; try (apply summ_nil; cbn; assumption); try (apply summ_nil; cbn; reflexivity).
    + right. split; [reflexivity|]. apply AP; assumption.
    + apply summ_nil. cbn [consumed fst]. unfold end_container. rewrite !fst_seq. apply end_value_buf.
    + apply summ_nil. cbn [consumed fst]. unfold start_object. rewrite !fst_seq. reflexivity.
    + apply summ_nil. cbn [consumed fst]. unfold start_array. rewrite !fst_seq. reflexivity.
    + right. split; [reflexivity|]. cbn [consumed fst]. rewrite !fst_seq. apply AP; [exact El|exact E0].
    + right. split; [reflexivity|]. cbn [consumed fst]. rewrite !fst_seq. unfold hist; cbn; flds. split; [rewrite El; intros []|].
      split; [|flds; rewrite El; discriminate]. intros _. flds. rewrite E0. cbn. repeat split; intros X; try discriminate. apply (is_true _ _ Heqb6).
    + right. split; [reflexivity|]. cbn [consumed fst]. rewrite !fst_seq. apply AP; [exact El|exact E0].
    + right. split; [reflexivity|]. apply hist_other. cbn. exact I.
    + right. split; [reflexivity|]. apply hist_other. cbn. exact I.
    + right. split; [reflexivity|]. apply AP; assumption.
  - apply bytes_eqb_neq in E0.
    destruct (bytes_eqb (s_buf s) (lit "/") && is c "/"); [apply summ_nil; reflexivity|].
    destruct (bytes_eqb (s_buf s) (lit "/") && is c "*"); [apply summ_nil; reflexivity|].
    assert (HH : forall b, hd 0 b <> 96 -> hd 0 b <> 45 -> hd 0 b <> 43 -> hist c s (set_buf b s)).
    { intros b X1 X2 X3. unfold hist; flds. split; [rewrite El; intros []|]. split; [|rewrite El; discriminate]. intros _. flds.
      repeat split; intros ->; cbn in *; congruence. }
    destruct (bytes_eqb (s_buf s) (lit """")) eqn:B1.
    { apply bytes_eqb_eq in B1. destruct (is c """"); [|apply summ_nil; reflexivity].
      right. split; [reflexivity|]. cbn. rewrite B1. apply HH; discriminate. }
    destruct (bytes_eqb (s_buf s) (lit "'")) eqn:B2.
    { apply bytes_eqb_eq in B2. destruct (is c "'"); [|apply summ_nil; reflexivity].
      right. split; [reflexivity|]. cbn. rewrite B2. apply HH; discriminate. }
    destruct (bytes_eqb (s_buf s) (lit "`")) eqn:B3.
    { apply bytes_eqb_eq in B3. destruct (is c "`") eqn:C; [|apply summ_nil; reflexivity]. apply is_true in C.
      right. split; [reflexivity|]. cbn. rewrite B3. unfold hist; flds. split; [rewrite El; intros []|]. split; [|rewrite El; discriminate]. intros _. flds. cbn.
      repeat split; try discriminate. left. auto. }
    destruct (bytes_eqb (s_buf s) (lit """""")).
    { destruct (is c """"); apply summ_nil; [reflexivity|]. cbn [again fst]. rewrite fst_seq. apply end_value_buf. }
    destruct (bytes_eqb (s_buf s) (lit "''")).
    { destruct (is c "'"); apply summ_nil; [reflexivity|]. cbn [again fst]. rewrite fst_seq. apply end_value_buf. }
    destruct (bytes_eqb (s_buf s) (lit "``") && match c with None => true | _ => false end) eqn:B4.
    { apply andb_true_iff in B4. destruct B4 as [B4 Hc]. apply bytes_eqb_eq in B4. destruct c; [discriminate|].
      right. split; [reflexivity|]. cbn. split; [rewrite El; intros []|]. split; [|rewrite El; discriminate]. intros _. rewrite B4. cbn.
      repeat split; try discriminate. auto. }
    repeat match goal with
    | |- summ _ _ (if ?b && ?d then _ else _) =>
        destruct (b && d); [right; split; [reflexivity|]; apply hist_other; exact I|]
    end.
    destruct (negb (unquoted_next opts s c)) eqn:U.
    { apply summ_nil. cbn [again fst]. rewrite !fst_seq. apply end_string_buf. }
    destruct c as [x|]; [|discriminate]. unfold append_code_point, upd.
    assert (LL : forall y, s_buf s ++ [x] <> [y]).
    { intros y X. destruct (s_buf s) as [|a [|b l]]; [congruence|discriminate|discriminate]. }
    assert (L2 : s_buf s ++ [x] <> [96; 96]).
    { intros X. apply bytes_eqb_neq in B3. apply B3. destruct (s_buf s) as [|a [|b l]]; [congruence| |destruct l; discriminate].
      injection X as -> ->. reflexivity. }
    unfold base_word.
    destruct (if s_key _ then None else _).
    { apply summ_nil. cbn [consumed fst]. apply clear_buf. }
    destruct (negb _ && _).
    { right. split; [reflexivity|]. unfold hist; cbn; flds. split; [rewrite El; intros []|]. split; [|rewrite El; discriminate]. intros _. flds.
      repeat split; intros X; try (destruct (LL _ X)). destruct (L2 X). }
    destruct (_ || _); [apply summ_nil; reflexivity|].
    apply summ_nil. cbn [consumed fst]. rewrite !fst_seq. reflexivity.
Qed.

Lemma string_summ c s : quoted_leaf (s_leaf s) \/ (s_leaf s = LUnquoted /\ s_buf s = []) -> summ c s (string_rules opts c s).
Proof.
  intros Hl.
  assert (ES : forall d, summ c s (end_string opts s, d)) by (intros d; left; apply end_string_buf).
  assert (CL : forall a d, summ c s ((a ;; clear_buffer) s, d)) by (intros a d; left; apply clear_buf).
  destruct Hl as [Hl|[El Eb]].
  2: { unfold string_rules. rewrite El. destruct (negb _); [apply ES|]. left. cbn [consumed fst].
       destruct (emit_only c s) as (_ & E & _). congruence. }
  assert (HB : forall b, (b = [92] -> c = Some 92) -> hist c s (set_buf b s)).
  { intros b Hb. split; flds; [intros _; exact Hb|]. split; intros E; rewrite E in Hl; destruct Hl. }
  assert (DT : forall n base, (length (s_buf s) >= 1)%nat -> c <> None -> summ c s (digit_then opts c n base s)).
  { intros n base Hn Hc. unfold digit_then, append_code_point, upd. destruct c as [x|]; [|congruence].
    destruct (Nat.eqb _ n); [left; cbn [consumed fst]; apply clear_buf|].
    right. split; [reflexivity|]. cbn. apply HB. intros X. destruct (s_buf s) as [|a [|b l]]; cbn in Hn; [lia|discriminate|discriminate]. }
  unfold string_rules. destruct (s_leaf s) eqn:El; destruct Hl; unfold buf_is, buf_starts.
  all: destruct (bytes_eqb (s_buf s) []) eqn:B0;
    [unfold string_plain; apply bytes_eqb_eq in B0; destruct c as [x|]; [|apply ES];
     destruct (is (Some x) "\") eqn:C; [apply is_true in C; right; split; [reflexivity|]; cbn; apply HB; intros _; exact C|]|].
  all: try (match goal with |- summ _ _ ((if ?b then _ else _) _) => destruct b end; [apply ES|]).
  all: try (left; cbn [consumed fst]; destruct (emit_only (Some x) s) as (_ & E & _); congruence).
  all: try (match goal with |- summ _ _ ((if ?b then _ else _) _) => destruct b eqn:C' end;
       [right; split; [reflexivity|]; cbn; rewrite B0; apply HB; intros X; injection X; intros; subst; discriminate|
        left; cbn [consumed fst]; destruct (emit_only (Some x) s) as (_ & E & _); congruence]).
  all: apply bytes_eqb_neq in B0.
  all: assert (LN : (length (s_buf s) >= 1)%nat) by (destruct (s_buf s); [congruence|cbn; lia]).
  all: assert (NE : forall x, s_buf s ++ [x] <> [92]) by
    (intros x X; destruct (s_buf s) as [|a [|b l]]; [congruence|discriminate|discriminate]).
  all: destruct (bytes_eqb (s_buf s) (lit "\")) eqn:B1;
    [apply bytes_eqb_eq in B1; unfold string_escape;
     repeat match goal with |- summ _ _ ((if ?b then _ else _) _) => destruct b eqn:? end;
     try destruct c as [x|];
     first
     [ discriminate
     | apply CL | apply ES
     | left; reflexivity
     | left; cbn [consumed fst]; rewrite !fst_seq; reflexivity
     | right; split; [reflexivity|]; cbn; rewrite B1; apply HB; discriminate ]|].
  all: destruct (bytes_eqb (s_buf s) [92; 13]); [destruct (within c 10 10); left; reflexivity|].
  all: assert (TQ : forall q two, summ c s (triple_quote opts q two c s)) by
    (intros q two; unfold triple_quote; destruct two, c as [x|]; try apply ES;
     (destruct (is (Some x) q); [try apply ES|left; cbn [consumed fst]; rewrite !fst_seq; reflexivity]);
     right; split; [reflexivity|]; cbn; apply HB; intros X; destruct (NE _ X)).
  all: repeat (match goal with |- summ _ _ (if bytes_eqb ?a ?b then triple_quote _ _ _ _ _ else _) =>
     destruct (bytes_eqb a b); [apply TQ|] end).
  all: assert (HX : is_hex c = true -> c <> None) by (intros X ->; discriminate).
  all: assert (OC : is_octal c = true -> c <> None) by (intros X ->; discriminate).
  all: repeat match goal with |- summ _ _ (if ?b then _ else _) => destruct b eqn:? end;
    try (apply DT; [exact LN|auto]; fail); try apply CL; try (left; reflexivity).
  all: try (right; split; [reflexivity|]; cbn; apply HB; discriminate).
  all: right; split; [reflexivity|]; destruct c as [x|]; [|discriminate]; cbn; apply HB; intros X; destruct (NE _ X).
Qed.

Lemma number_summ c s : (s_leaf s = LNumBuffered \/ s_leaf s = LNumDecimal) -> summ c s (number_rules c s).
Proof.
  intros Hl. unfold number_rules.
  assert (HS : forall s1, s_leaf s1 = LNumBuffered \/ s_leaf s1 = LNumDecimal -> hist c s s1).
  { intros s1 [E|E]; apply hist_other; rewrite E; exact I. }
  destruct (is c "_" || is c "'"); [right; split; [reflexivity|]; apply HS, Hl|].
  assert (EN : forall b, summ c s (first (emit b) (end_number c) s)).
  { intros b. left. unfold first, emit, end_number. destruct (is c "n" || is c "l" || is c "L"); cbn [consumed again];
      destruct (end_value_buf s) as [E _]; destruct (end_value s) as [s2 o2]; exact E. }
  destruct Hl as [El|El]; rewrite El.
  - unfold buffered_rules.
    repeat match goal with |- summ _ _ (if ?b then _ else _) => destruct b end;
      try (right; split; [reflexivity|]; apply HS; cbn; rewrite ?El; auto; fail).
    + right. split; [reflexivity|]. apply HS. cbn [consumed fst]. unfold append_if_room. destruct (Nat.ltb _ _); [|auto].
      destruct c; cbn; auto.
    + right. split; [reflexivity|]. apply HS. cbn [consumed fst]. unfold append_if_room. destruct (Nat.ltb _ _); [|auto].
      destruct c; cbn; auto.
    + right. split; [reflexivity|]. apply HS. cbn [consumed fst]. unfold append_if_room. destruct (Nat.ltb _ _); [|auto].
      destruct c; cbn; auto.
    + destruct (is c "e" || is c "E"); [|apply EN]. right. split; [reflexivity|]. apply HS. cbn. auto.
  - unfold decimal_rules.
    destruct (within c 48 57).
    { right. split; [reflexivity|]. apply HS. right. cbn [consumed fst]. rewrite !fst_seq. unfold cond, nop, emit_raw, emit, append_str, upd. flds.
      repeat match goal with |- context[if ?b then _ else _] => destruct b end; flds; exact El. }
    repeat match goal with |- summ _ _ (if ?b then _ else _) => destruct b end; try apply EN;
      (right; split; [reflexivity|]; apply HS; right; cbn; exact El).
Qed.

Lemma all_summ c s : (s_leaf s = LUnquoted -> s_buf s = []) -> summ c s (all_rules opts c s).
Proof.
  intros Hu. unfold all_rules. destruct (s_leaf s) eqn:El.
  - apply base_summ, El.
  - apply string_summ. left. rewrite El. exact I.
  - apply string_summ. left. rewrite El. exact I.
  - apply string_summ. left. rewrite El. exact I.
  - apply string_summ. left. rewrite El. exact I.
  - apply string_summ. left. rewrite El. exact I.
  - apply string_summ. right. auto.
  - right. assert (X : forall s1, s_leaf s1 = LCommentLine \/ s_leaf s1 = LCommentMulti -> hist c s s1).
    { intros s1 [E|E]; apply hist_other; rewrite E; exact I. }
    unfold comment_rules. rewrite El. destruct (json5_eol c); split; try reflexivity.
    + cbn. split; flds; [intros []|]. split; [|discriminate]. intros _. repeat split; discriminate.
    + apply X. left. exact El.
  - unfold comment_rules. rewrite El.
    assert (X : forall s1, s_leaf s1 = LCommentLine \/ s_leaf s1 = LCommentMulti -> hist c s s1).
    { intros s1 [E|E]; apply hist_other; rewrite E; exact I. }
    destruct (buf_is s []); [destruct (is c "*")|destruct (is c "/")].
    + right. split; [reflexivity|]. apply X. right. destruct c; exact El.
    + right. split; [reflexivity|]. apply X. right. exact El.
    + left. reflexivity.
    + left. reflexivity.
  - apply number_summ. left. exact El.
  - apply number_summ. right. exact El.
Qed.
End Validity.
